{
 "C12": {
  "note": "Expansion is exact and terminates; a declared list holds exactly its items when non-empty, without trailing comma and without commas inside items. Refuted otherwise: `[]` and a trailing comma add the empty string as an item."
 },
 "C15": {
  "note": "The word table is proved exactly; refuted as a severity scale for `alert`, which is Low."
 },
 "C16": {
  "note": "Refuted: inline list literals are ignored by the compiler, the test is false on every record.",
  "status": "partial"
 },
 "C19": {
  "note": "Each transformation proved against its definition. Findings recorded as theorems: the base64Offset and cidr modifiers always panic, the name base64offset of the Sigma language is ignored, and several transforming modifiers are tried separately instead of being chained."
 },
 "C22": {
  "note": "Defaults and parsing proved exactly, including the cases where malformed numbers are reported or an error is masked."
 },
 "C30": {
  "note": "Join, order and delivery proved for every stream the reader gets through. The ancestry is exactly the one found at the first look-up since the header (part of EventCtx); it is current only under the condition of C30_ancestry_partial; C30_ancestry_refuted: stale after an update of the process."
 },
 "C32": {
  "note": "Exporter.Process as a step function over records, ticks and close; counter unbounded integer."
 },
 "C33": {
  "note": "Proved per batch for syslog (delivery depends on the batch's own records only), at most once, in order; Kafka per record. Whole-batch loss is refuted (a refused record leaves the first part delivered), and over a text file a short write also corrupts the first record of the next batch."
 },
 "C34": {
  "note": "JSON strings as in RFC 8259 (SpecJson.jstr); texts as UTF-8 byte strings."
 },
 "C35": {
  "note": "The emitted text denotes exactly the JSON object described by SpecJson.record_value, with unique member names, for every writable record; which records are writable is C64."
 },
 "C36": {
  "note": "Refuted for addresses and services with two or more elements (no comma is written); proved for at most one, and for the other lists of any length."
 },
 "C37": {
  "note": "For arbitrary records and contexts, and end to end from Falco rules."
 },
 "C38": {
  "note": "Existence and uniqueness of a classification for all flags, and that it is the exported one for every event; the event end is the start only when the end time is zero."
 },
 "C39": {
  "note": "Values, acceptance and Init characterised for every configuration map; refuted: a configuration without Kafka options is refused for every transport (including most shipped pipelines); es with JSON is accepted but exports nothing; a negative buffer crashes."
 },
 "C41": {
  "note": "Proved for every well-formed network of stages (one writer and one reader per channel, acyclic): no crash, termination under every schedule, completeness when Wait returns. Refuted in the cases named by the _refuted theorems: Wait does not cover Cleanup; an engine in last position; wrong number of inputs; shared output channels."
 },
 "C42": {
  "note": "Consistency and stability proved for all request sequences; refuted parts: the type of a later request is ignored, and a one-word tag panics instead of being reported."
 },
 "C43": {
  "note": "Doubles are abstract parameters. Which values crash is part of the statement."
 },
 "C44": {
  "note": "Proved for words for true and for the word False; with any other word for false (e.g. `false`) the answer is inverted (C44_bool_refuted)."
 },
 "C46": {
  "note": "Set as the list of map keys; range order arbitrary."
 },
 "C47": {
  "note": "Proved for attributes stored as integers and for literals; the general claim is false of the code for the parent's uid/gid (C47_parent_uid_numeric_refuted): the mapper returns an int32 that MapInt does not accept, so it falls back to 0."
 },
 "C48": {
  "note": "Proved for literals without '['; false in general (C48_bracket_literal_refuted): MapStr cuts the operand at the first '['."
 },
 "C49": {
  "note": "The `re` modifier: see theorem statements; the regular expression engine itself is a parameter of the model."
 },
 "C51": {
  "note": "Refuted: concurrency 0 is accepted by the configuration and then no record is ever processed and shutdown hangs (C51_zero_concurrency_refuted)."
 },
 "C52": {
  "note": "Refuted: .yml files and files in subdirectories are loaded but not monitored; what triggers a check is characterised exactly by C52_trigger."
 },
 "C53": {
  "note": "Refuted: when the queue of ten is full, the newest compiled policies are dropped and never offered."
 },
 "C54": {
  "note": "Proved under the hypothesis that every stage has a string processor tag; without it false (a stage without one silently truncates the pipeline with a nil error)."
 },
 "C55": {
  "note": "Refuted: a log without resource, an attribute without value, and prefix/suffix tests on an empty array crash the evaluation; C43_compare says these are the only crashes of comparisons on a log with resource."
 },
 "C56": {
  "note": "Sane streams never crash the reader; refuted for cyclic parents, out-of-range states and (entities enabled) files with a nil container reference."
 },
 "C57": {
  "note": "Events, processes and files are relayed; containers, pods and Kubernetes events reach the second handler as nil."
 },
 "C58": {
  "note": "Proved for all exported attributes (C58_all_attributes: the specification covers the whole table), and for the fields of the record that no attribute shows (C58_unnamed). sfgo functions are parameters."
 },
 "C59": {
  "note": "Equal semantics give equal bytes; the converse holds for records of the same shape whose executables and arguments have the same lengths, and is refuted otherwise: executable and arguments are hashed without separator, so distinct events are suppressed, for every hash function."
 },
 "C60": {
  "note": "Partial: 51 names agree; refuted for fd.name (base name instead of path), proc.tty and proc.createtime (the parent's), evt.rawres (record type); twelve documented names are unknown and silently constant."
 },
 "C62": {
  "note": "Ticks and clock readings are events of the history."
 },
 "C63": {
  "note": "Write results are given per record."
 },
 "C64": {
  "note": "Exact characterisation of the JSON records, for arbitrary records and for flattened events; unknown ancestry and longer pod lists give texts that are not JSON (recorded as a refutation of the expected 'every exported record is JSON')."
 },
 "C65": {
  "note": "For arbitrary records and for flattened events."
 },
 "C66": {
  "note": "Unrestricted injectivity is false: concatenation of node and container names is ambiguous for names of different lengths, and events equal in the hashed attributes collide (refuted with two renames); proved for names of the same lengths and up to a hash collision."
 },
 "C67": {
  "note": "Exact characterisation for arbitrary records; corollary for flattened events."
 },
 "C68": {
  "note": "The full document, for every event and context. Time formatting, protocol names, community ids and operation bits are parameters."
 },
 "C69": {
  "note": "kind follows the flag; refuted that the engine sets it on matches."
 },
 "C70": {
  "note": "Proved for every file system and flag history; with the network of NetModel, when the driver's wait returns the first stage has received exactly these records."
 },
 "C71": {
  "note": "Refuted: the driver returns without closing or waiting, and some schedule loses every record handed over so far (a subdirectory in the input directory is enough). The exact behaviour is C71_failure_exact."
 },
 "C72": {
  "note": "One record per message in order proved; decoding from the message alone proved for decoders that do not read past the message, refuted otherwise (the buffer keeps bytes of earlier messages, and undecodable messages are delivered too)."
 },
 "C73": {
  "note": "Proved for the file driver (C70_stopped) and for the socket driver while it reads; refuted while it waits for a connection (the listener is not closed) and for the Kafka driver (the request is ignored)."
 },
 "C74": {
  "note": "Delivery and configuration proved; refuted that the logs are processed before the program ends: the driver never waits."
 },
 "C75": {
  "note": "Proved for every other name; refuted for `socket`, which means the drivers of the configuration and fails if there are none, as in the shipped SysFlow pipelines."
 },
 "C76": {
  "note": "Proved when names are distinct; refuted: entries of the same name all get the first entry's settings, and errors of drivers other than the last are ignored."
 },
 "C77": {
  "note": "Proved for a single file; for directories proved only for logs that set all fields and receivers that look before the next file is loaded; refuted in general (messages are reused across files)."
 },
 "C78": {
  "note": "Conditions: proved. Policies: proved when every output text is followed by another field before the next '-'; refuted otherwise (the output text can absorb a following list declaration)."
 },
 "C79": {
  "note": "Proved from the text to the compiled criterion."
 },
 "C80": {
  "note": "Proved for words separated by white space or comments; refuted for a key glued to its value (`rule:x` is one TAG word)."
 },
 "C81": {
  "note": "Proved for texts without the odd quote sequences left out of the model (see DESIGN)."
 },
 "C82": {
  "note": "Names, paths and quoted texts proved; refuted for unquoted severity words and keywords, negative numbers; numbers are lexed as names."
 },
 "C83": {
  "note": "Proved; determinacy proved when outputs are closed (see C78)."
 },
 "C84": {
  "note": "Refuted: append is parsed and ignored."
 },
 "C85": {
  "note": "Start-up characterised exactly; refuted: a number of workers below 0 or from 2^31 on crashes the program instead of being refused, and policies in *.yml files or subdirectories only are refused when monitored. Files with syntax errors are taken to leave whole trees here; C96 covers the others."
 },
 "C86": {
  "note": "Composes start-up, the grammar, the compiler, the worker and the pool. Hypotheses: texts without inline lists (C16), actions that do not change the data, performance logging off."
 },
 "C87": {
  "note": "Composes C86 with the monitor; the directory may look different at every check. Policy files caught half-written may crash the process instead of being refused: C96."
 },
 "C88": {
  "note": "Composes C28-C31, C41, C86, C32, C63, C35. Hypotheses: shipped shape of the pipeline (one output per stage), no policy monitor, a stream without ancestry cycles, actions that do not change the data, all file writes succeed (C88_json_file). The worker pool enters as the function it computes (C86) and a number of records at work."
 },
 "C89": {
  "note": "Resolution and no crash proved for every history. Sharing is refuted for libraries that do not register their own name (C89_not_shared_refuted) and excluded otherwise (C89_own_handler); a library may replace the built-in name (C89_builtin_kept_refuted)."
 },
 "C90": {
  "note": "Exact characterisation proved (C90_loads_iff) for built-in stages, readers and processors with the flattener. Refuted parts: wrong types crash rather than being reported, stage order matters, a second pipeline of the same process cannot have flattenerchan."
 },
 "C91": {
  "note": "Refines C88: every stage takes the atomic steps of its own model and the policy monitor may publish at any moment. Hypotheses: one output channel per stage, channels of positive capacity and at least one worker for progress, a stream without ancestry cycles, policy texts in the supported constructs, actions that do not change the data, all file writes succeed (C91_files_to_file). The flat records of one input record are sent after it has been handled completely."
 },
 "C92": {
  "note": "Composes C17, C20-C27, C86, C87 and C91 for Sigma. Hypotheses: performance logging off; rules enter as the parsed structures of the sigma-go library (its YAML front end is not modelled); Sigma rules have no actions, so registered actions are irrelevant."
 },
 "C93": {
  "note": "Hypotheses: logs whose own scope, if any, is last (as sources and engines produce them), actions that leave the log unchanged, performance logging off, policy texts in the supported constructs. In the model a test that panics answers false; C94 says when none does. C93_turn_case shows that a rule reading the tags attribute may depend on map iteration order."
 },
 "C94": {
  "note": "Holds for all keys but sf.processor.tags; refuted there (C94_tags_refuted)."
 },
 "C95": {
  "note": "Proved for one encoder, for encoders taking turns, and (C95_blurred_partial) how far damage can go under any interleaving; refuted in general: for every two process events that differ in time there is an interleaving of two ECS exporters in which one alert is lost in Elasticsearch (C95_race_refuted), and of two flatteners in which a new event is suppressed (C95_suppressed_refuted)."
 },
 "C96": {
  "note": "Proved: files with errors are never accepted, and are reported when the recovered trees have all their parts (C96_whole_reported, C96_cut_condition_reported); refuted: the compiler walks the trees before it looks at the errors, so files cut off inside a declaration header crash the process (C96_cut_off_refuted), as does every recovered tree with a needed part missing (C96_missing_parts_refuted). Modelled: truncation; recovery in the middle of a file only as 'any tree with parts missing' (C96_errors_never_accepted, C96_reported_partial)."
 },
 "C97": {
  "note": "Composes C70, C91, C67, C68 with the bulk indexer (arrival in any order, any failures). Which events have equal identifiers: C66."
 },
 "C98": {
  "note": "Extends C91 from finished runs to every reachable state; rest and its existence need channels of capacity at least one and one worker. A record held by the exporter waits for the next tick (C98_flushed)."
 },
 "C99": {
  "note": "C99_any_attribute_refuted: attributes with upper case letters or underscores cannot be set from the environment although the documentation names es.bulk.numWorkers etc. as settable. Reading the file (viper) is not modelled; the model starts from the decoded configuration."
 },
 "C100": {
  "note": "Completeness side of C78-C83: an independent surface syntax (SpecWrite: words, layout, declarations) is proved to have exactly one reading. Outside it: outputs that end their rule (C78_absorbed_list_refuted), words glued together without a space, quoted texts with escapes, nested tags and ': >'."
 },
 "C101": {
  "note": "Counterpart of C91/C98 for logs. Describes runs up to the first test that panics (C94_tags_refuted); logs of the regular shape, actions that do not change the data. The producer is assumed to accept every message (C101_kafka_to_kafka); refused ones are only logged (C39/C46 family). When the driver returns, the process exits without waiting (C74_no_loss_refuted), which is why the statements are about every moment. That proto.Marshal of one ResourceLogs is not what the driver unmarshals (LogsData) is library level and not stated."
 },
 "C102": {
  "note": "Relational: two policies, one edit. Policies with inline lists (C16) or readings that are not unique (C78) are outside; only names, descriptions and priorities of the rules told are compared, not tags and actions. Start-up of both policies is a hypothesis: an edit can make the compiler fail (C12, C82)."
 },
 "C103": {
  "note": "Proved: convergence for directories of *.yaml files (no subdirectories) that never come back to an earlier content, when no change falls into a check; the monitor settles; and this world refines MonitorModel. Refuted: the start-up window, returning files, files changed during a check. inotify is assumed to report every change and lose nothing; an empty directory keeps the old policies (C26)."
 },
 "C104": {
  "note": "Proved: coverage up to the committed offset, and the exact account of each life at the moment it ends. Refuted: no loss, no repetition, getting past a bad message. One partition, one member of the group, librdkafka's default offset handling (stored when handed over, committed in the background)."
 },
 "C105": {
  "note": "Proved for policies without a monitor and without the rate filter (index, file after a complete run), and with a monitor and filter for the text at a crash. Refuted: what was exported to a file survives a restart when the source does not repeat itself."
 },
 "C106": {
  "note": "Proved for every queue and channel size and every schedule. Refuted: records keep being delivered (the delivery reports are never read), Flush returns when everything is delivered. The client library's behaviour (queue, events channel, Flush, Close) is an assumption of the model, written from confluent-kafka-go's documented behaviour."
 },
 "C107": {
  "note": "Proved for the SysFlow and the OpenTelemetry pipeline, at every moment of every run, and for the process table. Refuted: the reader's tables stay bounded without headers. Records are counted, not bytes; the librdkafka and socket buffers of the sources and targets are outside."
 },
 "C108": {
  "note": "encoding/json is modelled as its documentation and source describe it (sorted map keys, struct fields in order, omitempty, HTML escaping, replacement of invalid UTF-8); numbers are integers or truth values. Time stamps are C109."
 },
 "C109": {
  "note": "Package time (Unix, absDate, Format of RFC3339Nano) is modelled from its Go source, in unbounded integers with four-digit years."
 },
 "C110": {
  "note": "Proved for streams whose events have known processes, and that all others crash the printer; the example processor is refuted. fmt formatting of %s and %d is modelled."
 },
 "C111": {
  "note": "Proved: what is logged. Refuted: that it says anything about the exporter's target."
 },
 "C112": {
  "note": "As C102, for Sigma rules. Rules are the trees sigma-go's parser returns (its parsing is not modelled); double negation is left out because truth is stated constructively."
 },
 "C113": {
  "note": "Holds for a signal received once all drivers run (C113_stop_holds, _stop_proceeds, _drivers_end, _socket_stops). A Kafka driver never stops (C113_kafka_refuted). False for signals during start-up, before the goroutine waits, and after the first (the _refuted theorems: real runs for every input). The flag is read and written in single steps; only the flag, sends and ends of the drivers are kept."
 },
 "C114": {
  "note": "Compares two complete lives of the pipeline of ChainModel with any clocks, capacities, buffers, start times and interleavings. The hypothesis that the rate filter is off is needed: which repeats are suppressed depends on when they are processed (C114_filter_matters gives two complete lives, 1 record against 2). With two or more workers nothing is claimed about the order."
 },
 "C115": {
  "note": "Pins down the helpers of GoBase that the specifications of other properties share with the model (the functions of package strings and strconv, TrimBoundingQuotes, map access). White space is that of Unicode, exactly as TrimSpace reads it; letters are those of ASCII: Go also knows other letters."
 },
 "C116": {
  "note": "Joins C58 (what the flattener stores) and C35/C64 (what the encoder writes) into one statement that mentions neither slots nor the encoder's tables. Library functions of sfgo (names of types, flags, files) are parameters; that their names of types are PE, NF, FF, FE, KE and that flag names need no escaping are hypotheses (names_types, plain_name). The path of a second file is written with the target of a link, unlike the attribute a policy reads. The unconditional form is false: see C36 and C64."
 },
 "C117": {
  "note": "Full grammar of path.Match patterns (stars, question marks, classes, escapes), for every pattern and every name; for patterns with classes, names without slashes (C117_slash_case shows why: Go's search is greedy). Sigma condition patterns contain only letters, digits, underscores and stars, for which the byte-per-character model is exact."
 },
 "C118": {
  "note": "Proved for policies that never name the processor's own attributes (sf.processor.rules, sf.processor.tags): the exact effect, log by log and for whole runs, of adding a rule or filter anywhere, adding disabled or unused declarations, exchanging neighbours and inlining macros. C118_own_attributes_refuted: a policy that does name them can have a rule start firing because another was put before it."
 },
 "C119": {
  "note": "One theorem per kind of configuration (with policies, bypass) for the shipped network of C88 up to the terminal, syslog, Kafka and file targets with the JSON encoder; refused items of syslog and Kafka in any pattern."
 },
 "C120": {
  "note": "Falco policies read from text never contain such an operand; a Sigma field or value that is a field name followed by an opening bracket is accepted and ends the process at the first record whose evaluation reaches it (C120_sigma_crash_refuted); the safe policies are characterised."
 },
 "C121": {
  "note": "Proved what becomes of every log, panics included, and that it is what C93 says where nothing panics. No log with a resource and no value of a kind that crashes a test ends the process, unless the policy tests the tags the engine itself notes; refuted for logs without a resource (C121_bare_refuted), and for sf.processor.tags (C94_tags_refuted)."
 },
 "C122": {
  "note": "The look and its events proved exactly; that StopMonitor returns is proved when no more events come and refuted otherwise (events without a gap; a monitor never started or already stopped). The look itself and recompilation are C26, C27, C103 and are one step here, assumed to return."
 },
 "C123": {
  "note": "Proved for exporters only, and for any exporters with an engine if the array behind the tags has no room; refuted with an engine if it has room (a tag is lost), and for the JSON exporter if a tag is added between its two readings (no comma is written). One append is one step; what the exporter's rules are is fixed beforehand."
 }
}