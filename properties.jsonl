{"id": "C01", "title": "Criteria form a Boolean algebra", "statement": "For every record, a conjunction, disjunction or negation of criteria evaluates to the Boolean conjunction, disjunction or negation of what its parts evaluate to on that record; All of a list holds iff every member holds (and holds for the empty list), Any iff some member holds (and fails for the empty list).", "quantifier": "all record types, records, criteria and lists of criteria of any length", "why_tests_cant": "lists of criteria are unbounded and the predicates are arbitrary functions", "anchors": ["core/policyengine/policy/predicates.go:And,Or,Not,All,Any"]}
{"id": "C02", "title": "String operators mean what their names say", "statement": "Equality, contains, startswith and endswith hold exactly when the left string equals, has as a substring, has as a prefix, has as a suffix the right string; the case-insensitive variants hold exactly when the plain relation holds modulo ASCII case.", "quantifier": "all pairs of strings", "why_tests_cant": "strings are unbounded; a wrong boundary shows only at particular alignments", "anchors": ["core/policyengine/source/operators.go:StrOps"]}
{"id": "C03", "title": "Numeric comparison operators are a total order", "statement": "The four numeric comparison operators decide <, <=, > and >= on signed 64-bit integers, so for every pair exactly one of lt, eq, gt holds, le is not gt and ge is not lt.", "quantifier": "all pairs of int64 values", "why_tests_cant": "2^128 pairs", "anchors": ["core/policyengine/source/operators.go:IntOps"]}
{"id": "C04", "title": "String comparison on a record is any-to-any over comma-separated values", "statement": "Comparing attribute and operand with a string operator succeeds iff some comma-separated component of the attribute's rendering stands in the relation with some comma-separated component of the operand's rendering; when neither rendering contains a comma this is exactly the plain relation.", "quantifier": "all records, attributes, operands and string operators", "why_tests_cant": "quantifies over all strings and every split position", "anchors": ["core/policyengine/source/flatrecord/operations.go:Compare,compareStr"]}
{"id": "C05", "title": "Membership tests range over the whole list", "statement": "A fold-any comparison holds iff some list item compares true against the attribute, fold-all iff every item does; the empty list gives false for any and true for all.", "quantifier": "all records, attributes, lists of any length and operators", "why_tests_cant": "list length is unbounded", "anchors": ["core/policyengine/source/flatrecord/operations.go:FoldAny,FoldAll"]}
{"id": "C06", "title": "Existence test", "statement": "The exists test on an attribute holds iff the value the attribute is mapped to in the record is not the zero value of its kind (empty string, 0, absent), and an attribute unknown to the mapper behaves as a non-empty constant.", "quantifier": "all records and attribute names", "why_tests_cant": "quantifies over all attribute names and record contents", "anchors": ["core/policyengine/source/flatrecord/operations.go:Exists", "core/policyengine/source/flatrecord/fieldmapper.go:Map"]}
{"id": "C07", "title": "Field lookup reads the slot of the attribute's source", "statement": "Reading an integer or string attribute of a flattened record returns the value stored by the first source slot of the requested source id and zero or the empty string when the record has no such source; it never returns another source's value.", "quantifier": "all records with any number of sources, all attribute ids", "why_tests_cant": "sources may come in any number and order", "anchors": ["core/policyengine/source/flatrecord/record.go:GetInt,GetStr"]}
{"id": "C08", "title": "Policy annotations accumulate", "statement": "Adding matched rules to a record's context appends them in order after those already there, never drops or reorders an earlier one, and leaves tags, hashes and record data unchanged; adding tags behaves likewise.", "quantifier": "all records and all sequences of annotation operations", "why_tests_cant": "histories of annotations are unbounded", "anchors": ["core/policyengine/source/flatrecord/record.go:Context", "core/policyengine/source/flatrecord/contextualizer.go"]}
{"id": "C09", "title": "Prefilter admits exactly the listed types", "statement": "A rule with no prefilter is applicable to every record; a rule with a prefilter is applicable to a record iff the record's type is among the listed ones.", "quantifier": "all records and prefilter lists", "why_tests_cant": "prefilter lists and types range over all strings", "anchors": ["core/policyengine/source/flatrecord/prefilter.go:IsApplicable"]}
{"id": "C10", "title": "A compiled condition means what the policy text says", "statement": "For every set of macro and list definitions and every condition expression without inline list literals (C16 covers those), evaluating the compiled condition on any record gives the truth value of the expression read as ordinary Boolean logic with macros replaced by their definitions and lists by their items; compilation terminates when the definitions are acyclic.", "quantifier": "all condition ASTs, all macro/list environments, all records", "why_tests_cant": "expressions nest without bound and macros chain without bound", "anchors": ["core/policyengine/policy/falco/compiler.go:visitExpression,visitTerm,reduceList"]}
{"id": "C11", "title": "Inequality is the complement of equality", "statement": "For every attribute, operand and record exactly one of the conditions `a = b` and `a != b` holds; `not` of any term holds iff the term does not.", "quantifier": "all attributes, operands, records, terms", "why_tests_cant": "quantifies over all records", "anchors": ["core/policyengine/policy/falco/compiler.go:visitTerm"]}
{"id": "C12", "title": "Nested lists are flattened, in order, without loss", "statement": "Expanding a list of items replaces each item naming a list by the expansion of that list, in place, keeps every other item, and terminates for every acyclic list environment; a declared list holds exactly its declared items.", "quantifier": "all list environments and item lists", "why_tests_cant": "nesting depth is unbounded", "anchors": ["core/policyengine/policy/falco/compiler.go:reduceList,extractListFromItems"]}
{"id": "C13", "title": "Scope of definitions across policy files", "statement": "A rule sees the nearest preceding definition of a macro or list in its own file, otherwise the last definition in its own file, otherwise the one left by earlier files; a name defined only in later files makes the reference unresolved, and an unresolved reference is false.", "quantifier": "all sequences of files and all interleavings of macro, list, filter and rule declarations", "why_tests_cant": "file orders and redefinition histories are unbounded", "anchors": ["core/policyengine/policy/falco/compiler.go:compile,Compile,ExitPmacro,ExitPlist,ExitPrule"]}
{"id": "C14", "title": "Compilation is all-or-nothing and order-preserving", "statement": "If any policy file fails to parse no rule or filter is produced; otherwise the rules and filters are those of the files in file order and declaration order, none dropped or duplicated, with their name, enabled flag and priority taken from their own declaration (enabled unless explicitly a false literal).", "quantifier": "all sequences of parsed or failing files", "why_tests_cant": "any number of files and declarations", "anchors": ["core/policyengine/policy/falco/compiler.go:Compile,ExitPrule,ExitPfilter,getEnabledFlag,getPriority"]}
{"id": "C15", "title": "Severity mapping of rules", "statement": "The priority given to a rule by its severity word is the documented one and is Low for a missing or unrecognised word; it never exceeds High for the Falco front end.", "quantifier": "all severity words", "why_tests_cant": "ranges over all strings", "anchors": ["core/policyengine/policy/falco/compiler.go:getPriority", "core/policyengine/policy/sigma/compiler.go:getPriority"]}
{"id": "C16", "title": "Inline list literals in membership tests", "statement": "`attr in ([a, b, ...])` should hold iff the attribute equals one of the listed items.", "quantifier": "all items and records", "why_tests_cant": "ranges over all lists; the test-suite only uses named items", "anchors": ["core/policyengine/policy/falco/compiler.go:visitTerm,extractListFromAtoms"]}
{"id": "C17", "title": "Sigma condition semantics", "statement": "A compiled Sigma condition evaluates on every record to the truth value of its condition expression, where each search identifier denotes its compiled search, `1 of`/`all of` quantify over all searches or over the searches whose name matches the pattern, and an unknown identifier is false.", "quantifier": "all condition expressions, search tables and records", "why_tests_cant": "expressions and search tables are unbounded", "anchors": ["core/policyengine/policy/sigma/compiler.go:visitSearchExpression"]}
{"id": "C18", "title": "Sigma field matcher semantics", "statement": "A field matcher holds iff some value (every value with the `all` modifier) has some transformed form that satisfies all of the matcher's comparison modifiers on the mapped field; with no modifier the comparison is case-insensitive equality; a search holds iff all its matchers hold, and keyword-only searches never hold.", "quantifier": "all searches, modifiers, values and records", "why_tests_cant": "any number of matchers, values and modifiers", "anchors": ["core/policyengine/policy/sigma/compiler.go:visitSearch,visitTerm"]}
{"id": "C19", "title": "Sigma value transformations", "statement": "The windash form replaces every dash by a slash and keeps everything else; the base64 form decodes back to the value; the base64offset form of a value occurs in the base64 encoding of any text containing the value at that alignment; no flag leaves the value unchanged.", "quantifier": "all values, flags, prefixes and suffixes", "why_tests_cant": "ranges over all byte strings and alignments", "anchors": ["core/policyengine/policy/sigma/transformer.go:Transform", "core/policyengine/policy/sigma/modifiers.go"]}
{"id": "C20", "title": "Record disposition by a worker", "statement": "A record on which some enabled drop filter holds is neither annotated, acted on nor forwarded. Otherwise it is annotated with exactly the enabled, applicable rules whose condition holds, in declaration order, each once; it is forwarded exactly once in enrich mode and, in alert mode, exactly once if at least one rule matched and not at all otherwise.", "quantifier": "all rule sets, filter sets, modes and records", "why_tests_cant": "rule and filter lists are unbounded and conditions are arbitrary predicates", "anchors": ["core/policyengine/engine/interpreter.go:worker"]}
{"id": "C21", "title": "Actions run in order and failures are isolated", "statement": "For a matched rule every declared action that is known is invoked exactly once, in declaration order, whether or not earlier ones failed; unknown actions are skipped; a built-in action takes precedence over a user-defined one of the same name and the last declared user action wins.", "quantifier": "all action lists, registries and action outcomes", "why_tests_cant": "any subset of actions may fail", "anchors": ["core/policyengine/engine/actionhandler.go:HandleActions"]}
{"id": "C22", "title": "Policy engine configuration is total and defaulted", "statement": "Every option absent from the configuration keeps its documented default; a present option is interpreted as documented and unknown words fall back to the documented value, independently of every other option.", "quantifier": "all configuration maps", "why_tests_cant": "2^n subsets of options and all strings", "anchors": ["core/policyengine/engine/config.go:CreateConfig"]}
{"id": "C23", "title": "The worker pool processes each record exactly once", "statement": "For every schedule of submitters and workers, when the pool has been stopped each submitted record has been processed by exactly one worker, no record was invented, at most the channel capacity plus the worker count are in flight at any time, and with one worker the processing order is the submission order.", "quantifier": "all schedules, all numbers of workers, all record sequences", "why_tests_cant": "the number of interleavings is exponential", "anchors": ["core/policyengine/engine/interpreter.go:StartWorkers,StopWorkers,ProcessAsync,worker"]}
{"id": "C24", "title": "Stopping drains before the output closes", "statement": "Under every schedule, the output channel of the policy engine is closed only after every accepted record has been fully processed, so no worker ever sends on a closed channel and nothing emitted is lost.", "quantifier": "all schedules of producer, workers and shutdown", "why_tests_cant": "race windows depend on scheduling", "anchors": ["core/policyengine/policyengine.go:Process,Cleanup", "core/policyengine/engine/interpreter.go:StopWorkers"]}
{"id": "C25", "title": "Hot policy swap is atomic per record", "statement": "When a new policy set is installed while records are flowing, every record is evaluated by exactly one policy set, all records accepted before the swap by the old one and all after by the new one, and none is lost or duplicated.", "quantifier": "all record/update interleavings and any number of updates", "why_tests_cant": "all interleavings of updates and traffic", "anchors": ["core/policyengine/policyengine.go:Process"]}
{"id": "C26", "title": "The policy monitor publishes only successfully compiled policy sets", "statement": "The local policy monitor queues at most its capacity of interpreters, publishes only after a change in the monitored checksums and only when compilation succeeded, in order; if the queue is full the newest one is discarded. It is made exactly if the directory can be listed, has a policy file and compiles, and then offers those policies.", "quantifier": "all histories of directory contents and compile outcomes", "why_tests_cant": "histories of directory states are unbounded", "anchors": ["core/policyengine/monitor/localpolicymonitor.go:calculateChecksum,CheckForPolicyUpdate"]}
{"id": "C27", "title": "Change detection is exact on monitored files", "statement": "A check reports a change iff the set of monitored files or the checksum of one of them differs from the previous check, in every history of checks.", "quantifier": "all histories of file-name to checksum maps", "why_tests_cant": "unbounded histories", "anchors": ["core/policyengine/monitor/localpolicymonitor.go:calculateChecksum"]}
{"id": "C28", "title": "Entity tables return the entity in force", "statement": "After any sequence of insertions, looking up a container, pod, file or process returns the latest one inserted for that identifier (for processes: the latest of the most authoritative state present, modified over created over re-announced), and nothing after a reset.", "quantifier": "all insertion/reset histories", "why_tests_cant": "histories are unbounded", "anchors": ["core/cache/tables.go:GetCont,SetCont,GetProc,SetProc,GetFile,SetFile,GetPod,SetPod,Reset"]}
{"id": "C29", "title": "Process ancestry", "statement": "The ancestry computed for a process begins with the process itself and then lists, in order, its parent, grandparent and so on as long as they are known; every element is the table's entry for its identifier; computation terminates whenever the parent relation is acyclic.", "quantifier": "all process tables with parent chains of any length", "why_tests_cant": "chains are unbounded; termination is not testable", "anchors": ["core/cache/tables.go:GetPtree,getProcProv"]}
{"id": "C30", "title": "Events are joined with the entities known so far", "statement": "For every record stream an event is delivered with the process, container, files and ancestry that the entity records since the last header define for its identifiers, and with absent (not stale or foreign) entities when they are not known; entity records themselves are delivered only to handlers that ask for them; the number of deliveries equals the number of deliverable records and their order is preserved.", "quantifier": "all record streams", "why_tests_cant": "streams are unbounded and interleave entities and events arbitrarily", "anchors": ["core/processor/reader.go", "core/processor/processor.go"]}
{"id": "C31", "title": "Rate filter suppresses exactly the recent repeats", "statement": "With the filter enabled, an event is suppressed iff an event with the same semantic hash was let through less than the configured age before it; the bookkeeping never forgets an unexpired entry and never keeps an expired one past the next check.", "quantifier": "all time-ordered event streams and ages", "why_tests_cant": "streams and times are unbounded", "anchors": ["core/flattener/filter.go", "core/flattener/flattener.go:out"]}
{"id": "C32", "title": "Batching neither loses, duplicates nor reorders records", "statement": "For every sequence of records, timer ticks and channel close, the batches handed to the transport, concatenated, are exactly the received records in order; each batch is non-empty and no larger than max(1, configured buffer); nothing remains buffered after close.", "quantifier": "all event histories and buffer sizes", "why_tests_cant": "arrival and timer interleavings are unbounded", "anchors": ["core/exporter/exporter.go:Process,process"]}
{"id": "C33", "title": "Export failures lose at most the rest of a batch", "statement": "Over syslog, whatever records fail to encode or are refused: nothing of a batch that cannot be encoded is exported; of any other batch a first part is, and all of it unless one of its own records is refused; every record is exported at most once and in order, and one batch's failure does not affect another. (The stronger reading - whole batches only, and no effect on other batches over a text file - is refuted.)", "quantifier": "all failure patterns, buffer sizes and event histories", "why_tests_cant": "failure patterns and histories are unbounded", "anchors": ["core/exporter/exporter.go:process", "core/exporter/transports/syslog.go:Export", "core/exporter/transports/file.go:Export", "core/exporter/transports/kafka.go:Export"]}
{"id": "C34", "title": "JSON string escaping is safe and faithful", "statement": "The escaped form of any string contains no raw quote, no raw control character and no unfinished escape, so the string ends exactly at the closing quote, and decoding it as JSON gives back the original text (invalid UTF-8 replaced).", "quantifier": "all byte strings", "why_tests_cant": "unbounded strings, all byte combinations", "anchors": ["core/exporter/encoders/json.go"]}
{"id": "C35", "title": "JSON records are structurally well formed", "statement": "For every record whose attribute renderings are well-formed values, the emitted object is balanced, has each section at most once, and no missing or dangling comma.", "quantifier": "all sets of exported attributes and record types", "why_tests_cant": "every combination of sections present/absent", "anchors": ["core/exporter/encoders/json.go:encode"]}
{"id": "C36", "title": "JSON arrays with several elements", "statement": "The array attributes (addresses, services) should be valid JSON arrays for any number of elements.", "quantifier": "all array lengths", "why_tests_cant": "single-element test data hides the separator", "anchors": ["core/exporter/encoders/json.go:mapIPArray,mapSvcArray"]}
{"id": "C37", "title": "ECS alert severity and reason", "statement": "The exported severity of an alert is the maximum of the matched rules' priorities (at least low), the reason lists every matched rule name in order and the tags contain the context tags and every rule's tags in order.", "quantifier": "all lists of matched rules", "why_tests_cant": "lists are unbounded", "anchors": ["core/exporter/encoders/ecs.go:encode,extracTags"]}
{"id": "C38", "title": "ECS event classification", "statement": "Event category, type and action are a function of the operation flags with the documented precedence, total on all flag combinations, and the event end is never zero.", "quantifier": "all operation bit masks", "why_tests_cant": "2^k flag combinations", "anchors": ["core/exporter/encoders/ecs.go"]}
{"id": "C39", "title": "Exporter configuration", "statement": "Options given in the configuration override defaults and unknown transports and formats fall back to terminal and JSON; a configuration valid for its own transport should be accepted.", "quantifier": "all configuration maps", "why_tests_cant": "all option combinations", "anchors": ["core/exporter/commons/config.go:CreateConfig"]}
{"id": "C40", "title": "Environment overrides", "statement": "An environment variable NAME_ATTR sets attribute attr (lower-cased, underscores to dots) of processor NAME, wins over the file's value, and changes no other processor or attribute.", "quantifier": "all environments and configurations", "why_tests_cant": "ranges over all strings", "anchors": ["driver/pipeline/plugincache.go:getEnv"]}
{"id": "C41", "title": "Pipeline shutdown cascades and waits", "statement": "When the first channel closes, every stage terminates after consuming all of its input, closes its output exactly once after its last send, and the pipeline's Wait returns only after every stage has finished processing; all records accepted are seen by the last stage.", "quantifier": "all schedules and pipeline lengths", "why_tests_cant": "scheduling nondeterminism", "anchors": ["driver/pipeline/pipeline.go:process,Wait", "core/flattener/flattener.go:Cleanup"]}
{"id": "C42", "title": "Channel names denote channels consistently", "statement": "Asking twice for a channel by the same name returns the same channel, different names give different channels, and an earlier association is never changed.", "quantifier": "all sequences of requests", "why_tests_cant": "unbounded request histories", "anchors": ["driver/pipeline/plugincache.go:GetChan"]}
{"id": "C43", "title": "OpenTelemetry attribute comparison is decided by the first matching attribute", "statement": "An exists test on OpenTelemetry logs holds iff some resource, scope or record attribute has the key; a comparison is decided by the first attribute (resource before scope before record) of that key, nested key-value lists included, and fails if there is none.", "quantifier": "all attribute lists with any nesting", "why_tests_cant": "attribute lists and nesting are unbounded", "anchors": ["core/policyengine/source/otel/operations.go", "core/policyengine/source/otel/operator.go"]}
{"id": "C44", "title": "OpenTelemetry boolean comparison", "statement": "Comparing a boolean attribute for equality with `true`/`false` should hold iff the values agree.", "quantifier": "all boolean attributes and operand words", "why_tests_cant": "the tested spelling hides the others", "anchors": ["core/policyengine/source/otel/operator.go:doBooleanComparison"]}
{"id": "C45", "title": "OpenTelemetry annotations", "statement": "Annotating a log with matched rules appends each rule's name in order to the policies attribute of the processor's own scope, appends their tags, and leaves every other attribute unchanged.", "quantifier": "all logs and rule lists", "why_tests_cant": "unbounded logs and histories", "anchors": ["core/policyengine/source/otel/contextualizer.go"]}
{"id": "C46", "title": "Set utility", "statement": "The set operations implement a finite set: membership after any sequence of additions and removals is that of the mathematical set, and subset agrees with membership.", "quantifier": "all operation sequences", "why_tests_cant": "unbounded histories", "anchors": ["core/exporter/utils/set.go"]}
{"id": "C47", "title": "Numeric comparisons read the stored number", "statement": "A numeric comparison on an attribute compares the number the record stores for it: for the current process's and event's integer attributes the stored value, for a numeric literal its value. (Refuted for the parent's uid and gid, whose numeric reading is 0 on every record.)", "quantifier": "all records, all integer attributes and all 64-bit literals", "why_tests_cant": "the claim is over every record content and every attribute name of the table; a test samples a few", "anchors": ["core/policyengine/source/flatrecord/fieldmapper.go: MapInt, mapCachedValue", "core/policyengine/source/flatrecord/record.go: GetCachedValue"]}
{"id": "C48", "title": "A literal operand denotes itself", "statement": "An operand that is not an attribute name is compared as itself (one pair of bounding quotes removed). (Refuted for literals containing '[': everything from the first '[' on is discarded.)", "quantifier": "all operand strings and all records", "why_tests_cant": "ranges over all strings", "anchors": ["core/policyengine/source/flatrecord/fieldmapper.go: MapStr, cut"]}
{"id": "C49", "title": "Sigma re modifier", "statement": "A Sigma field matcher with the `re` modifier should hold iff the field matches the value as a regular expression.", "quantifier": "every field, value, modifier list and record", "why_tests_cant": "the modifier is silently dropped; tests on patterns equal to the field value pass", "anchors": ["core/policyengine/policy/sigma/modifiers.go:ComparatorsMap", "core/policyengine/policy/sigma/compiler.go:visitTerm"]}
{"id": "C50", "title": "Sigma list of maps is a disjunction", "statement": "A Sigma search given as a list of maps should hold iff at least one of the maps holds.", "quantifier": "every list of maps and record", "why_tests_cant": "agrees with the implementation on one-element lists and whenever all or none hold", "anchors": ["core/policyengine/policy/sigma/compiler.go:visitSearch"]}
{"id": "C51", "title": "Every accepted concurrency makes progress", "statement": "Whatever integer is configured as the policy engine's concurrency, records given to the engine should be evaluated and the engine should terminate when its input closes. (Refuted for concurrency 0, which is accepted and hangs the plugin on its first record.)", "quantifier": "all concurrency values, policies, records and schedules", "why_tests_cant": "that no schedule whatsoever leads out of the hang is a statement about all interleavings", "anchors": ["core/policyengine/engine/config.go:CreateConfig", "core/policyengine/engine/interpreter.go:StartWorkers,ProcessAsync"]}
{"id": "C52", "title": "Every policy file the engine loads is monitored", "statement": "In monitored mode, a change of any file that the engine loads as policy is detected by the local monitor and leads to a recompilation.", "quantifier": "for every directory content and every change of it", "why_tests_cant": "The files loaded and the files monitored are computed by different directory scans; they must agree on every directory layout and file name.", "anchors": ["core/policyengine/monitor/localpolicymonitor.go:calculateChecksum,StartMonitor", "core/policyengine/policyengine.go:compile"]}
{"id": "C53", "title": "The latest policies win", "statement": "After changes stop, the newest policy set that compiled is eventually offered to the engine.", "quantifier": "for every history of file changes, compilations and pick-ups by the engine", "why_tests_cant": "Depends on the interleaving of file events with the engine's polling and on the bounded queue between them.", "anchors": ["core/policyengine/monitor/localpolicymonitor.go:CheckForPolicyUpdate", "core/policyengine/monitor/policymonitor.go"]}
{"id": "C54", "title": "Loading reports incomplete pipelines", "statement": "If loading a pipeline reports no error, every configured stage is running, initialized, and wired to the channels its tags name.", "quantifier": "for every pipeline configuration, set of registered processors and channel types", "why_tests_cant": "Configurations are arbitrary JSON; a test covers a few.", "anchors": ["driver/pipeline/pipeline.go:Load", "driver/pipeline/plugincache.go:GetChan"]}
{"id": "C55", "title": "Policy evaluation over OpenTelemetry logs never crashes", "statement": "Evaluating any comparison or existence test on any decoded OpenTelemetry log terminates with a truth value.", "quantifier": "all logs the wire format can decode to, all tests", "why_tests_cant": "every combination of absent optional fields and array shapes", "anchors": ["core/policyengine/source/otel/operations.go:getAllAttributes,compareHelper", "core/policyengine/source/otel/operator.go:doArrayComparison"]}
{"id": "C56", "title": "The reader survives every record stream", "statement": "For every stream of decoded records, including malformed ones, the reader processes all records without crashing or looping.", "quantifier": "all record streams", "why_tests_cant": "cyclic parents, unknown states and absent references occur only in corrupt or unusual streams", "anchors": ["core/processor/reader.go:Process", "core/cache/tables.go:getProcProv,SetProc"]}
{"id": "C57", "title": "Relayed records keep their entities", "statement": "A processor that receives records with context from a reader hands the same entity or event to its handler as the reader did.", "quantifier": "all record streams", "why_tests_cant": "all record kinds and histories", "anchors": ["core/processor/processor.go:Process", "core/processor/reader.go:Process"]}
{"id": "C58", "title": "Flattened records say what happened", "statement": "For every event and every set of entities it is joined with, each exported attribute (sf.*) read from the flattened record equals the field of the event or entity it names, and the empty string or zero when that entity is absent or does not apply to the event's kind.", "quantifier": "all events, all combinations of present and absent entities, all exported attributes", "why_tests_cant": "about a hundred attributes times five kinds of event times every combination of missing entities", "anchors": ["core/flattener/flattener.go", "core/policyengine/source/flatrecord/fieldmapper.go", "core/policyengine/source/flatrecord/record.go"]}
{"id": "C59", "title": "The semantic hash identifies an event's semantics", "statement": "Two events have the same bytes hashed for rate filtering iff they agree on executable, arguments, user, group, operation flags, tty and, by kind, addresses, port and protocol or file path.", "quantifier": "all pairs of events", "why_tests_cant": "collisions between different events are rare pairs", "anchors": ["core/flattener/filter.go:semanticHash", "core/flattener/flattener.go"]}
{"id": "C60", "title": "Falco names denote the documented attributes", "statement": "Every Falco field name of the documented table, and every further one the policy engine accepts, reads on every record the same value as the SysFlow attribute it stands for.", "quantifier": "all documented names and all records", "why_tests_cant": "each name must agree on every record, and a wrong mapping shows only on records where two attributes differ", "anchors": ["core/policyengine/source/flatrecord/fieldmapper.go:getNonExportedMappers", "docs/POLICIES.md"]}
{"id": "C61", "title": "Rate filter configuration", "statement": "For every configuration the filter is on iff filter.enabled is exactly \"on\"; its age is 24 hours unless filter.maxage is a number, and then that number of seconds whenever it is representable in nanoseconds; an age that is not positive, or overflows to a negative one, suppresses nothing.", "quantifier": "all configurations, all histories", "why_tests_cant": "all strings as option values, all integers as ages, all histories", "anchors": ["core/flattener/config.go", "core/flattener/flattener.go:Init", "core/flattener/filter.go"]}
{"id": "C62", "title": "Idle records are flushed", "statement": "A buffered record does not wait for the buffer to fill: once a ticker event comes more than one second after the record was received, the record has been handed to the transport.", "quantifier": "all event histories with a clock that does not go back, all buffer sizes", "why_tests_cant": "depends on the interleaving of records, ticks and clock readings", "anchors": ["core/exporter/exporter.go:Process"]}
{"id": "C63", "title": "Text outputs hold one line per record", "statement": "Without write errors, when the channel has been closed the export file (emptied on start) and the terminal hold exactly one line per received record, in the order received, if no encoding contains a newline.", "quantifier": "all histories, encodings without newline, and buffer sizes", "why_tests_cant": "unbounded histories", "anchors": ["core/exporter/transports/file.go:Init,Export", "core/exporter/transports/terminal.go:Export"]}
{"id": "C64", "title": "Which exported JSON records are JSON", "statement": "A record the JSON exporter writes is a JSON text exactly when its process ancestry is known (or it is a Kubernetes event) and, if it has a pod, the pod's addresses, services and cluster addresses have at most one element each.  In particular every record of a process whose ancestry is unknown is exported as a text no JSON parser accepts.", "quantifier": "all records, contexts and versions", "why_tests_cant": "a statement about every record and every parser; the test traces contain no such records", "anchors": ["core/exporter/encoders/json.go:encode,MapJSON,mapIPArray,mapSvcArray", "core/policyengine/source/flatrecord/fieldmapper.go"]}
{"id": "C65", "title": "The JSON encoder is total", "statement": "Encoding a record as JSON never returns an error, and it returns a text for every record except those that name a pod without carrying its lists of addresses and services, on which it panics; records made by the flattener are never of that kind.", "quantifier": "all records and contexts", "why_tests_cant": "quantifies over all records", "anchors": ["core/exporter/encoders/json.go:encode,MapJSON", "core/processor/processor.go"]}
{"id": "C66", "title": "Documents reach the index under their identifiers", "statement": "Documents with distinct identifiers that are not yet in the Elasticsearch index are all indexed; the identifier of a document depends only on the node, container, time, thread, process creation time, operation flags and the file, flow or Kubernetes message of its event, and (short of a hash collision and for names of equal length) distinguishes any two events that differ in these. (Two different events equal in all these, such as two renames in the same tick, get the same identifier and the second is lost.)", "quantifier": "all events, contexts and sequences of exported documents", "why_tests_cant": "injectivity quantifies over all pairs of events", "anchors": ["core/exporter/encoders/ecs.go:encodeID", "core/exporter/transports/elastic.go:Export"]}
{"id": "C67", "title": "The ECS encoder is total on events", "statement": "Encoding a record for ECS never returns an error; it yields a document for every record produced by the flattener, and panics on exactly the records that name a pod without carrying its address and service lists, Kubernetes records without attributes, and records of unknown type on which a rule matched.", "quantifier": "all records and contexts", "why_tests_cant": "quantifies over all records", "anchors": ["core/exporter/encoders/ecs.go:encode"]}
{"id": "C68", "title": "The ECS document describes the event", "statement": "Every section of the exported ECS document (host, container, user, process, orchestrator, pod, services, network, source, destination, file, file action, event) is present exactly for the events it applies to, and each of its fields holds the value of the event or of the entity joined with it.", "quantifier": "all events, joined entities and contexts", "why_tests_cant": "quantifies over all events and combinations of missing entities", "anchors": ["core/exporter/encoders/ecs.go", "core/processor/processor.go"]}
{"id": "C69", "title": "Alerts are marked as alerts", "statement": "The kind of an exported ECS event is alert exactly when the record's alert flag is set. (The policy engine never sets that flag, so in alert mode matched records are exported with kind event unless a user-defined action sets it.)", "quantifier": "all records, contexts, rule sets and modes", "why_tests_cant": "quantifies over all policies and records", "anchors": ["core/exporter/encoders/ecs.go:encodeEvent", "core/policyengine/source/flatrecord/record.go:SetAlert", "core/policyengine/engine/interpreter.go:ProcessAsync"]}
{"id": "C70", "title": "The file driver delivers every record in order and waits", "statement": "Started on a trace file or a directory of trace files, the processor hands the records of all files to the pipeline, file after file in directory order and record after record (giving up a file at its first unreadable datum), closes the channel exactly once after the last record, and returns only after the pipeline has received all of them. When asked to stop it has handed over an initial part of that sequence, and still closes and waits.", "quantifier": "for all file systems, file contents, driver configurations, moments of a stop request, and schedules of the pipeline", "why_tests_cant": "Tests run a few traces; the claim ranges over all contents, all positions of unreadable data and all moments of a stop.", "anchors": ["driver/sysflow/filedriver.go:getFiles", "driver/sysflow/filedriver.go:FileDriver.Run"]}
{"id": "C71", "title": "An unreadable input file does not lose records read before", "statement": "If an input file cannot be opened or is not a trace, the records of the files before it are still processed by the pipeline before the program ends.", "quantifier": "for all directories, contents and schedules", "why_tests_cant": "Whether records are lost depends on the schedule.", "anchors": ["driver/sysflow/filedriver.go:FileDriver.Run", "driver/main.go:run"]}
{"id": "C72", "title": "The socket driver delivers one record per message, decoded from that message", "statement": "Every message received on the socket that fits the buffer is delivered as exactly one record, in order, also across reconnections, and the record is what that message encodes; the output channel is closed once, after the last record. The driver refuses to run without a channel and when it cannot listen, and returns without error only when it has been stopped.", "quantifier": "for all sequences of connections, messages, read and accept failures and stop requests", "why_tests_cant": "The content of the reused buffer depends on all earlier messages of the connection.", "anchors": ["driver/sysflow/streamingdriver.go:StreamingDriver.Run", "driver/sysflow/readmsgunixlinux.go:readMsgUnix"]}
{"id": "C73", "title": "A stop request ends the program", "statement": "After an interrupt or termination signal every driver stops taking input, closes its channel and the program ends once the pipeline has drained.", "quantifier": "for all drivers and all moments of the signal", "why_tests_cant": "The effect depends on the state in which the signal finds the driver.", "anchors": ["driver/pipeline/pipeline.go:Shutdown", "driver/sysflow/streamingdriver.go:Cleanup", "driver/otel/kafkadriver.go:Cleanup"]}
{"id": "C74", "title": "The Kafka driver delivers all logs of all messages", "statement": "The logs of every message consumed are handed to the pipeline in order until a read fails or a message cannot be parsed, and are processed before the program ends; a configuration is accepted exactly if it names brokers and topics.", "quantifier": "for all message sequences, encodings, configurations and schedules", "why_tests_cant": "Unbounded message sequences and schedules.", "anchors": ["driver/otel/kafkadriver.go:KafkaDriver.Run", "driver/otel/config.go:CreateKafkaConfig"]}
{"id": "C75", "title": "The driver named on the command line is the one used", "statement": "With `-driver NAME` the processor uses the driver registered under NAME; without it, the drivers of the configuration, in order; an unknown name or no driver at all is an error.", "quantifier": "for all names and configurations", "why_tests_cant": "All combinations of arguments and configurations.", "anchors": ["driver/main.go:run", "driver/pipeline/pipeline.go:Load", "driver/pipeline/plugincache.go:GetDriver"]}
{"id": "C76", "title": "Every configured driver runs with its own configuration, and failures are reported", "statement": "Each driver entry of the configuration is started with its own settings, and the exit status is 0 exactly if the pipeline loaded and every driver initialised and ran without error.", "quantifier": "for all driver configurations and driver outcomes", "why_tests_cant": "All combinations of drivers, settings and failures.", "anchors": ["driver/pipeline/pipeline.go:Init", "driver/pipeline/pipeline.go:GetDriverConfig", "driver/main.go:run"]}
{"id": "C77", "title": "OpenTelemetry logs read from files are delivered as they are in the file", "statement": "Every log of every file of the input reaches the pipeline with the contents it has in its file, whenever the receiver looks at it. A file that cannot be opened or parsed ends the run with an error, after the logs of the files before it.", "quantifier": "for all directories, contents and moments at which the receiver looks", "why_tests_cant": "Messages are shared by reference; what the receiver sees depends on timing and on the other files.", "anchors": ["driver/otel/filedriver.go:FileDriver.Run"]}
{"id": "C78", "title": "A policy text has one reading", "statement": "A condition text has at most one reading, and a policy text has at most one sequence of declarations; the user never gets a different policy from the one written.", "quantifier": "for all condition and policy texts", "why_tests_cant": "Ambiguity of a grammar is a property of all texts.", "anchors": ["core/policyengine/policy/falco/lang/Sfpl.g4:policy", "core/policyengine/policy/falco/lang/Sfpl.g4:text", "core/policyengine/policy/falco/compiler.go:compile"]}
{"id": "C79", "title": "not binds tighter than and, and tighter than or", "statement": "A condition written with the usual precedence (not, then and, then or) and only the parentheses it requires is accepted and holds of a record exactly when the formula does.", "quantifier": "for all boolean formulas over basic tests, all texts writing them, all records", "why_tests_cant": "Formulas of any depth.", "anchors": ["core/policyengine/policy/falco/lang/Sfpl.g4:expression", "core/policyengine/policy/falco/compiler.go:visitExpression"]}
{"id": "C80", "title": "White space and comments do not matter", "statement": "Changing white space and comments between the words of a policy does not change its declarations (but for the text inside names, descriptions and outputs).", "quantifier": "for all word sequences and all layouts", "why_tests_cant": "All layouts.", "anchors": ["core/policyengine/policy/falco/lang/Sfpl.g4:WS", "core/policyengine/policy/falco/lang/Sfpl.g4:COMMENT", "core/policyengine/policy/falco/lang/Sfpl.g4:TAG"]}
{"id": "C81", "title": "Names, descriptions and outputs are verbatim", "statement": "Every policy text is cut into words in exactly one way without losing a character, and the name, description and output of every rule are verbatim parts of the text.", "quantifier": "for all texts", "why_tests_cant": "All texts.", "anchors": ["core/policyengine/policy/falco/compiler.go:getOffChannelText", "core/policyengine/policy/falco/lang/Sfpl.g4:text"]}
{"id": "C82", "title": "Names, paths, numbers and quoted texts can be written as values", "statement": "A name, path, number or quoted text can be compared with in a condition, and a quoted text is compared verbatim without its quotes. A quoted text has at least one character, no end of line and not its own quote, and does not begin with a quote or a backslash.", "quantifier": "for all values", "why_tests_cant": "All values; depends on which lexical rule wins.", "anchors": ["core/policyengine/policy/falco/lang/Sfpl.g4:ID", "core/policyengine/policy/falco/lang/Sfpl.g4:PATH", "core/policyengine/policy/falco/lang/Sfpl.g4:STRING", "core/policyengine/policy/falco/lang/Sfpl.g4:SEVERITY"]}
{"id": "C83", "title": "The compiled rules are those of the policy texts", "statement": "Compiling policy files gives exactly one rule and one filter per declaration of their texts, with the meaning the declaration has in its scope; a text that is no policy gives no rules at all; the texts determine the result.", "quantifier": "for all lists of policy texts and all records", "why_tests_cant": "All texts and scopes.", "anchors": ["core/policyengine/policy/falco/compiler.go:Compile", "core/policyengine/policy/falco/lang/Sfpl.g4:policy"]}
{"id": "C84", "title": "append extends a macro", "statement": "A macro declared with append: true extends the earlier definition of the macro.", "quantifier": "for all policies", "why_tests_cant": "All policies.", "anchors": ["core/policyengine/policy/falco/lang/Sfpl.g4:pmacro", "core/policyengine/policy/falco/compiler.go:ExitPmacro"]}
{"id": "C85", "title": "The policy engine starts exactly when its policies are usable", "statement": "Init of the policy engine: without a policies option it succeeds in enrich mode (everything is passed on) and fails in alert mode; with one it succeeds exactly when policy files are found, all compile in the configured language, and (with a monitor) the directory can be watched; the compiled rules and filters are then in force. A bad configuration is refused, and monitoring does not change which policies are accepted.", "quantifier": "every configuration map, every content of the policy directory, both policy languages", "why_tests_cant": "the options, listings and compiler outcomes combine in unboundedly many ways; tests start a few fixed policy directories", "anchors": ["core/policyengine/policyengine.go:Init", "core/policyengine/policyengine.go:createPolicyInterpreter", "core/policyengine/engine/interpreter.go:Compile", "core/policyengine/monitor/localpolicymonitor.go:NewLocalPolicyMonitor"]}
{"id": "C86", "title": "From policy files to the engine's output", "statement": "After a successful Init on Falco policy files, whatever the number of workers and the scheduling, when the plugin has finished each output channel has received exactly: nothing for a record on which a declared filter fires, otherwise the record with the names, descriptions, priorities, actions and tags of the declared rules that fire (in declaration order) added to its context and its data unchanged, except that in alert mode records without a firing rule are not sent.", "quantifier": "every policy directory, every record sequence, every number of workers, every schedule", "why_tests_cant": "relates arbitrary policy texts to arbitrary record streams under arbitrary interleavings", "anchors": ["core/policyengine/policyengine.go:Init", "core/policyengine/policyengine.go:Process", "core/policyengine/policyengine.go:Cleanup", "core/policyengine/engine/interpreter.go:worker", "core/policyengine/policy/falco/compiler.go:Compile"]}
{"id": "C87", "title": "With a monitored directory, records fall into eras governed by successive policy texts", "statement": "With the local policy monitor, the records received form consecutive runs; the first is treated by the policies present at start-up, each later one by the policies some batch of directory changes showed, in the order of the changes; no record is treated by two policy sets, lost or duplicated. A policy set that is queued governs the first record handled after the checking interval has elapsed.", "quantifier": "every history of directory contents and file events, every record sequence, every schedule", "why_tests_cant": "needs all interleavings of the engine's, the workers' and the monitor's goroutines with arbitrary file histories", "anchors": ["core/policyengine/policyengine.go:Process", "core/policyengine/monitor/localpolicymonitor.go:StartMonitor", "core/policyengine/monitor/localpolicymonitor.go:CheckForPolicyUpdate"]}
{"id": "C88", "title": "What the shipped pipeline exports is what the policy texts make of the recorded events", "statement": "In the shipped pipeline (driver, reader with flattener, policy engine, exporter), under every schedule of the four stages: no channel is misused, Wait returns, and when it does the exporter has handed to its encoder exactly one record for every event of the stream that the rate filter lets through, no policy filter removes and (in alert mode) some rule matches, each carrying the data of the event joined with the process, container, pod and files in force when it was read, and the names, descriptions, priorities, actions and tags of the rules whose condition, as written in the policy files, holds. Without policies, in enrich mode, every event is exported. The JSON file written by the exporter consists of exactly one line per such record, each the JSON text of that record's attributes and matched rules whenever the record has one.", "quantifier": "every record stream without ancestry cycles, every set of policy texts in the supported constructs, every configuration, batch size, number of workers, channel capacity and schedule", "why_tests_cant": "composes four concurrent stages over unbounded streams and arbitrary policy texts; a test sees one stream and one schedule", "anchors": ["driver/pipeline/pipeline.go:Load", "core/processor/reader.go:Process", "core/policyengine/policyengine.go:Process", "core/exporter/exporter.go:Process", "core/flattener/flattener.go", "resources/pipelines/pipeline.distribution.json"]}
{"id": "C89", "title": "Each stage gets its own handler, of the kind registered under the name it asks for", "statement": "In every sequence of stage initializations of a process: a stage that names a handler gets a freshly made handler of the kind most recently registered under that name (flattener, or what loaded handler libraries registered); if the name is unknown it gets the handler exported by <handlerlibpath>/<name>.so; otherwise initialization reports an error. Two stages never share one handler object, and the name flattener keeps meaning the built-in flattener. (Sharing is possible, and the built-in can be replaced, through libraries: refuted in the general form.)", "quantifier": "every sequence of requests, every set of handler libraries on disk", "why_tests_cant": "the answer depends on the whole history of loaded libraries", "anchors": ["core/processor/handlercache.go:GetHandlerCacheInstance", "core/processor/handlercache.go:GetHandler", "core/processor/handlercache.go:LoadHandler", "core/processor/processor.go:Init"]}
{"id": "C90", "title": "A pipeline of built-in stages starts exactly if its channels carry what the stages expect", "statement": "A configuration of built-in stages whose other settings are in order is loaded without error, with no stage crashing on its channels, exactly if every channel mentioned can be made (its first mention names a known type; flattenerchan becomes known with the first reader or processor) and carries the record type of every stage it is an output or the only input of. All its stages are then started, with channels of those types. A mismatch is reported as an error, the order of the stages does not matter, and a configuration that loads can be loaded again by another pipeline of the same process. (The last three are false of the code: a mismatch crashes the process, an engine listed before the reader is refused, and a second pipeline never learns of flattenerchan.) The processor of a stage is the one last registered in its pipeline under the name, else that of the library <dir>/<name>.so. After a process has made one pipeline, no later one can have a channel of flattened records; an entry without a processor's name ends the loading without an error. The library of a processor registers its channel types for its pipeline, over the built-in ones; so does the library of a handler in the first pipeline of a process.", "quantifier": "every configuration of built-in stages, any number of channels per stage, both builds (flat records, OpenTelemetry)", "why_tests_cant": "quantifies over all configurations; the shipped ones are a handful", "anchors": ["driver/pipeline/pipeline.go:Load", "driver/pipeline/plugincache.go:GetChan", "driver/pipeline/plugincache.go:GetProcessor", "core/processor/handlercache.go", "core/flattener/flattener.go:SetOutChan", "core/policyengine/policyengine.go:SetOutChan", "core/exporter/exporter.go:Process", "core/processor/reader.go:Process"]}
{"id": "C91", "title": "The shipped pipeline, with the goroutines of all its stages and a policy monitor", "statement": "In the shipped pipeline every goroutine (data source, reader, engine main loop, workers, policy monitor, exporter) takes its own steps, in any order, while the policy files may be changed at any time. The process never panics. When the exporter has finished, the batches it handed to its encoder are made of exactly what becomes of the events of the stream, each joined with the entities in force and without the repeats the rate filter holds back; the events fall into consecutive eras, the first governed by the policy texts present at start-up and each later one by the texts some batch of file changes showed, in the order shown. Without a monitor the start-up texts govern all events; without policies, in enrich mode, all events are exported in order. With a directory of trace files as source, the JSON file written consists of one line per such record. From any point the pipeline can go on to its end, and steps other than ticks and file events cannot go on for ever.", "quantifier": "every schedule of every goroutine, every record stream without ancestry cycles, every sequence of changes to the policy files whose texts are in the supported constructs, every channel capacity and batch size", "why_tests_cant": "interleavings of six kinds of goroutines and of file changes over unbounded streams", "anchors": ["driver/pipeline/pipeline.go:Load", "driver/sysflow/filedriver.go:Run", "core/processor/reader.go:Process", "core/policyengine/policyengine.go:Process", "core/policyengine/engine/interpreter.go:StartWorkers", "core/policyengine/monitor/localpolicymonitor.go:StartMonitor", "core/exporter/exporter.go:Process"]}
{"id": "C92", "title": "Sigma rules, from the rule files to what leaves the engine and the pipeline", "statement": "With language sigma, after a successful start on a directory of rule files and a configuration file, whatever the number of workers, the scheduling, the order in which maps are walked and the actions registered: when the engine has finished, every output channel has received exactly one record for each record taken in on which (in alert mode) some condition of some rule holds, or for every record (in enrich mode), with its data unchanged and, for each condition that holds, in file order, the identifier, description, level and tags of its rule added to its context. Files that are not rules are skipped. With a monitored directory the records fall into consecutive eras, each governed by the rules some observation of the directory showed, in order. The same holds of the batches the exporter of the shipped pipeline hands to its encoder, for the events of the stream.", "quantifier": "all rule sets, mappings, records, configurations, schedules, map iteration orders and histories of file changes", "why_tests_cant": "Quantifies over schedules, map iteration orders, unbounded record streams and histories of changes to the rules.", "anchors": ["core/policyengine/policy/sigma/compiler.go:PolicyCompiler.Compile", "core/policyengine/engine/interpreter.go:PolicyInterpreter.Compile", "core/policyengine/policyengine.go:PolicyEngine.Process", "core/policyengine/monitor/localpolicymonitor.go:LocalPolicyMonitor"]}
{"id": "C93", "title": "OpenTelemetry logs, from the policy files to what leaves the engine", "statement": "With policies in Falco or Sigma language and an engine for OpenTelemetry logs, whatever the number of workers, the scheduling and the order in which maps are walked: when the engine has finished, every output channel has received, for each log taken in that no filter matches, one log if some rule fires on it or the mode is enrich, and none otherwise. The rules are tried in the order of the files, each on the log its predecessors left; a rule that fires adds its name and its tags (each once) to the processor's own scope, created at the end if needed, and nothing else of the log changes. If no condition or macro names one of the processor's own attributes, the rules that fire are those whose conditions hold of the log as it came in, and exactly one scope is added. With a monitored directory the logs fall into consecutive eras, each governed by the files some observation of the directory showed, in order.", "quantifier": "all policy texts, rules, logs that have at most the processor's own scope last, configurations, schedules, map iteration orders and histories of file changes; actions that leave the log as it is", "why_tests_cant": "Quantifies over schedules, map iteration orders, unbounded log streams and histories of changes to the policies.", "anchors": ["core/policyengine/source/otel/operations.go:Operations", "core/policyengine/source/otel/contextualizer.go:Contextualizer.AddRules", "core/policyengine/source/otel/prefilter.go:Prefilter.IsApplicable", "core/policyengine/engine/interpreter.go:PolicyInterpreter.ProcessAsync", "core/policyengine/policyengine.go:PolicyEngine.Process"]}
{"id": "C94", "title": "No policy test crashes on a well-formed log", "statement": "On a log that has a resource and in which no value deciding a test is one that makes a test crash, existence tests, comparisons, list tests and pattern tests all give an answer, and the annotations an engine makes keep it so for every key but the tags attribute. For the tags attribute it fails: a rule without tags that fires leaves an empty array there, on which a prefix or suffix test of a later rule crashes the program.", "quantifier": "all logs, keys, operators, operands, patterns and sequences of rules that fire", "why_tests_cant": "Ranges over all logs and all sequences of annotations.", "anchors": ["core/policyengine/source/otel/operations.go:compareHelper", "core/policyengine/source/otel/contextualizer.go:Contextualizer.AddRules"]}
{"id": "C95", "title": "Concurrent encoders and rate filters do not disturb each other's hashes", "statement": "The identifier an ECS exporter gives a document, and the hash by which a flattener recognises repeated events, depend on the event only: with one ECS exporter (or flattener) in the process, or several that never hash at the same time, every document has the identifier of its event, and an exporter that is scheduled often enough finishes. When several ECS exporters (flatteners) hash at the same time they share one scratch buffer: texts stay in place but numbers may be those of another event, so that two different alerts may get one document identifier and only one be indexed, and an event never seen before may be suppressed.", "quantifier": "all numbers of exporters, all sequences of records for each, all interleavings of their goroutines", "why_tests_cant": "the outcome depends on the interleaving of goroutines inside a single hash computation; a test sees one of exponentially many schedules", "anchors": ["core/exporter/encoders/ecs.go:byteInt64", "core/exporter/encoders/ecs.go:encodeID", "core/flattener/filter.go:semanticHash", "core/exporter/transports/elastic.go:Export"]}
{"id": "C96", "title": "A policy file with a syntax error is reported, not accepted", "statement": "Loading a set of policy files succeeds only if none of them has a syntax error or cannot be read, whatever tree error recovery left behind; when the trees have all the parts of their declarations, an error in any file makes loading fail with an error while the process goes on. A file that ends within a declaration does not always fail that way: cut off after the keyword of a rule or filter and before the colon of its condition, or before the name of a macro or list, it takes the process down; cut off right after 'condition:' it is reported.", "quantifier": "all sets of policy files, all trees with parts missing, all points at which a file may be cut off within a rule header, filter header or the name of a macro or list", "why_tests_cant": "the inputs are all texts, including every prefix of every policy file (a file being saved while it is read); a test tries a few", "anchors": ["core/policyengine/policy/falco/compiler.go:compile", "core/policyengine/policy/falco/compiler.go:ExitPrule", "core/policyengine/policy/falco/compiler.go:ExitPfilter", "core/policyengine/policy/falco/compiler.go:visitTerm", "core/policyengine/policy/falco/lang/parser/sfpl_parser.go:Prule"]}
{"id": "C97", "title": "From trace files and policy texts to an Elasticsearch index", "statement": "With the ECS encoder and the Elasticsearch target, when the shipped pipeline has finished, the documents sent to the index are one for each event of the trace files that the policies in force at the time select, and each describes its event, the entities in force then and the rules that fired. Documents already in the index stay; nothing else comes in; every document whose request did not fail is represented in the index by a document of its identifier, and by itself if no two of the run have the same identifier and it was not in use. This holds under every schedule of the pipeline, whatever becomes of the policy files, and for every order in which the bulk indexer's workers send.", "quantifier": "all trace files, policy texts and histories of the policy directory, all schedules of all goroutines, all initial contents of the index, all sets of failing requests and all orders of arrival within a batch", "why_tests_cant": "schedules, request failures and identifier collisions are unbounded; a test observes one run against one index", "anchors": ["core/exporter/encoders/ecs.go:Encode", "core/exporter/transports/elastic.go:Export", "core/exporter/exporter.go:process", "core/policyengine/policyengine.go:Process", "driver/sysflow/filedriver.go:Run", "driver/pipeline/pipeline.go:Load"]}
{"id": "C98", "title": "A live stream: the pipeline at every moment, and at rest", "statement": "While the shipped pipeline runs on a stream that has not ended, at every moment the records exported so far and those held for the next batch are part of what becomes, under the policy texts of its era, of the events of the part of the stream read so far: nothing else, nothing twice; at most one event is in the engine's main loop and the others are on their way. When no goroutine can go on, nothing is on its way: every event that has arrived has been judged and exported, or is held for the next batch. The pipeline does come to rest, from wherever it is, when nothing arrives, and a tick of the exporter more than a second after its last flush hands over what is held. With Falco policies or Sigma rules and a monitored directory, with fixed policies, and without any.", "quantifier": "every stream, complete or not, policy directory and history of changes to it, every interleaving of the goroutines, worker count, channel capacity, batch size and clock, at every step of the run", "why_tests_cant": "quantifies over every moment of every schedule, not only over finished runs, and over streams of any length; absence of loss before the end of the stream cannot be seen in a finished run", "anchors": ["driver/pipeline/pipeline.go:Load", "core/processor/reader.go:Process", "core/policyengine/policyengine.go:Process", "core/policyengine/engine/interpreter.go:StartWorkers", "core/policyengine/monitor/localpolicymonitor.go:StartMonitor", "core/exporter/exporter.go:Process"]}
{"id": "C99", "title": "The configuration a plugin is initialized with: manifest, cluster identifier, environment, file", "statement": "Loading a pipeline hands every processor entry the version, JSON schema version, ECS version and build number of the build and the cluster identifier of the variable CLUSTER_ID (first entry, empty without one), whatever the pipeline file or a variable for that processor says for them; every other attribute has the value the environment sets for this processor, else that of the file; entries without a processor are unchanged. The exporter runs with exactly these versions. An attribute whose name has an upper case letter or an underscore (such as es.bulk.numWorkers) can never be set from the environment.", "quantifier": "every manifest, environment of NAME=VALUE entries and pipeline configuration", "why_tests_cant": "ranges over all environments and configurations and says that no variable at all reaches certain attributes", "anchors": ["driver/pipeline/config.go:setManifestInfo,addGlobalConfigItem,getEnv", "driver/pipeline/plugincache.go:GetConfig,updateConfigFromEnv", "driver/pipeline/pipeline.go:Load", "core/exporter/commons/config.go:CreateConfig"]}
{"id": "C100", "title": "What a policy written in the policy language says", "statement": "A condition, or a policy, written as the words of its declarations one after another, separated by any white space and comments, reads as exactly those declarations: every operator word stands for its operator, 'and' binds tighter than 'or', lists keep their items in order, names, paths, quoted texts, tags and '<' and '>' are taken as values, and a rule's name, description and output are the text from its first to its last word. There is no other reading, provided an output is followed by another field of its rule and what follows a ':' does not begin with '>'. Compiling files written that way gives the rules and filters of these declarations, each with the meaning of its condition in the scope where it stands.", "quantifier": "every policy in abstract syntax, every choice of words for its names and values, and every layout of its text", "why_tests_cant": "ranges over all policies, all spellings of names and values and all layouts, and claims that no other reading exists", "anchors": ["core/policyengine/policy/falco/lang/Sfpl.g4:policy,prule,pfilter,pmacro,plist,expression,atom", "core/policyengine/policy/falco/compiler.go:Compile"]}
{"id": "C101", "title": "The OpenTelemetry pipeline, from Kafka messages to Kafka messages", "statement": "In the shipped OpenTelemetry pipeline every goroutine (Kafka driver, engine main loop, workers, policy monitor, exporter) takes its own steps in any order while the policy files may be changed at any time. No goroutine sends on or closes a closed channel. At every moment what the exporter has handed to its encoder, together with what it holds for the next batch, is part of what becomes of a first part of the logs heard on the input topic (all messages in order up to the first failed read or the first message that is not of logs): these fall into consecutive eras governed by the texts present at start-up and then by texts some batch of file changes showed, in the order shown; at most one log is in the engine's main loop and the rest is on its way. Once no goroutine can take a step, or the exporter has seen the end of its channel, nothing is on its way and every log has been disposed of; from any moment the pipeline does come to rest, and what is held leaves with the first tick more than a second after the last flush. The messages produced are the encodings, in order, of the logs handed to the encoder, without those that cannot be encoded. The same holds for Sigma rules, without a monitor, and without policies (then all logs pass in order).", "quantifier": "every schedule of every goroutine, every sequence of Kafka events and message contents, every sequence of changes to the policy files, every moment, every channel capacity, batch size and tick times", "why_tests_cant": "interleavings of five kinds of goroutines with external events over unbounded streams, stated at every intermediate moment", "anchors": ["driver/otel/kafkadriver.go:Run", "core/policyengine/policyengine.go:Process", "core/policyengine/engine/interpreter.go:StartWorkers", "core/policyengine/monitor/localpolicymonitor.go:StartMonitor", "core/exporter/exporter.go:Process,process", "core/exporter/encoders/otel.go:Encode", "core/exporter/transports/kafka.go:Export", "driver/pipeline/pipeline.go:Load"]}
{"id": "C102", "title": "Editing a policy changes only what the edit says", "statement": "Take two sets of Falco policy files, each with one reading, that the engine starts with under the same configuration, with actions that leave a record's data and rules alone. For every record, and for every pair of complete runs over the same records: (a) a rule put anywhere into a file leaves every record it does not fire on with the same verdict, and adds exactly one entry (its name, description and priority, at its place in the order) for a record it fires on and no filter takes; (b) a filter put anywhere only takes away the records it fires on; (c) a disabled rule or filter, and a macro or list nothing uses (whatever it contains, wherever it stands), change nothing; (d) two neighbouring rules that change places only change the order in which a record both fire on is told of them, and other neighbours that define nothing can change places without effect; (e) replacing uses of macros in a condition by the macros' conditions in parentheses changes nothing; (f) alert mode tells a record what enrich mode tells it, except that records told nothing stay away.", "quantifier": "all pairs of policy texts related by one edit at any place in any file, all records, modes, configurations, schedules and numbers of workers", "why_tests_cant": "a test edits one policy and tries a few records; that no edit at any place has a side effect on any record, under any schedule, is a relation between two programs for all inputs", "anchors": ["core/policyengine/policy/falco/compiler.go:Compile,ExitPlist,ExitPmacro,ExitPrule,ExitPfilter,visitExpression", "core/policyengine/engine/interpreter.go:ProcessAsync,worker,evalFilters", "core/policyengine/policyengine.go:createPolicyInterpreter", "core/policyengine/policyengine_flatrecord.go:processAsync"]}
{"id": "C103", "title": "The policies in force converge to the policy files", "statement": "However and whenever the files of the policy directory change while the engine runs: once the watcher, the monitor and the engine have caught up, the policies compiled last are those of the directory as it is then, and, when they compile and no result had to be dropped, they are the ones the engine works with; and left alone they do catch up, after a bounded number of steps. (It fails for a change between Init's compilation and the moment the watch is set up, for files that come back to an earlier content, and when files change while they are being checked.)", "quantifier": "all histories of the directory, all interleavings of changes with the monitor's listings, reads and compilations and with the engine's takes, all compilers and policies", "why_tests_cant": "a test makes a change and waits; the failures need a change in the gap between two reads of the directory, and convergence is a claim about every interleaving", "anchors": ["core/policyengine/monitor/localpolicymonitor.go:NewLocalPolicyMonitor,StartMonitor,calculateChecksum,CheckForPolicyUpdate", "core/policyengine/policyengine.go:Init,Process"]}
{"id": "C104", "title": "A killed and restarted OpenTelemetry pipeline", "statement": "The OpenTelemetry pipeline reading from Kafka may be killed at any moment and started again, any number of times: every message before the offset the consumer group has committed was read by some run; at the moment a run ends, what it has exported, with what waits in its exporter and what is on its way, is exactly what the policies in force make of the logs of the messages it read. (Delivery is neither at-least-once nor at-most-once: a message whose offset the client library commits in the background before its logs are exported is lost for good, all messages of a topic can be; logs exported before the commit are exported again, any number of times; and a message that does not parse stops each run that reaches it, so the messages after it are never read.)", "quantifier": "all topics, all histories of runs, every moment of ending, all schedules and batch boundaries, all times of offset commits, all policies", "why_tests_cant": "a test kills the processor at a few moments; what is lost or repeated depends on the moment relative to every channel operation and to the background commits", "anchors": ["driver/otel/kafkadriver.go:Init,Run,Cleanup", "driver/otel/config.go:CreateKafkaConfig", "core/exporter/exporter.go:Process,process"]}
{"id": "C105", "title": "Trace files processed again after being killed", "statement": "Working through trace files may be killed at any moment and started again, any number of times (the files possibly still being written in between). With an Elasticsearch target, fixed policies and no rate filter: after a run that completes, the index is what that run alone would have made of the index as it was before the first run, and at no time does it hold a document a complete run would not have put there. With a file target: a killed run leaves whole lines, each the JSON text of its record, and at most a beginning of one more; after a run that completes the file has the lines of an uninterrupted run. (It fails for sources that do not send their records again: the file is removed at every start.)", "quantifier": "all record streams, all histories of killed runs with their clocks, schedules and lost documents, every moment (and byte) of being killed, all policies", "why_tests_cant": "a test kills the processor at a few moments; the claim is about every moment of every schedule and every number of restarts", "anchors": ["driver/pipeline/pipeline.go:Load,Init,Wait", "driver/sysflow/filedriver.go:Run", "core/exporter/exporter.go:Process,process", "core/exporter/transports/elastic.go:Export", "core/exporter/transports/file.go:Init,Export"]}
{"id": "C106", "title": "What a Kafka target delivers in the long run", "statement": "Of the records handed to a Kafka target, what the broker gets is part of what the producer took, nothing twice; a record is refused only when more were handed over than the client's queue holds; when there is room for delivery reports the client can always empty its queue and go on; after Cleanup nothing arrives, and a Flush that returns early leaves nothing pending. (It does not go on for ever: with delivery reports on, the default, the producer takes at most as many records in its life as its queue and its events channel hold, because nobody reads the reports; every later record is dropped while Export reports success, and Cleanup always waits for its whole timeout; and a program that ends normally may end before Flush, with everything taken still in the queue.)", "quantifier": "all sizes of the client's queue and events channel, all sequences of exported items, all interleavings of exports with the client's deliveries, failures and reports, every moment of the shutdown", "why_tests_cant": "the default limits are a million reports and a hundred thousand messages: the target works in every test and stops after about that many records; and what is pending at shutdown depends on the schedule", "anchors": ["core/exporter/transports/kafka.go:Init,Export,Cleanup", "core/exporter/commons/kafkaconfig.go:CreateKafkaConfig", "core/exporter/exporter.go:Process,Cleanup", "driver/pipeline/pipeline.go:process,Wait"]}
{"id": "C107", "title": "What a running pipeline holds is bounded", "statement": "At every moment of a run, the records between the source and the exporter's target are at most: one channel full before each of reader, policy engine and exporter, one record in the reader, one plus twice the concurrency in the policy engine, and less than one batch in the exporter; the worker goroutines of all interpreters ever installed are never more than the concurrency. The reader's tables know exactly the processes announced since the last header, and a header empties them. (Memory as a whole is not bounded: nothing but a header ever removes a process, not even its exit, so for every n there is a stream without headers after which n processes are kept.)", "quantifier": "all streams of any length, policies, monitor updates, schedules, channel capacities, batch sizes and concurrencies, and every moment of the run; for the tables all streams", "why_tests_cant": "a test sees the peak of the schedules it happens to run; a bound on what is held must hold at each moment of every schedule, for streams of any length", "anchors": ["driver/pipeline/config.go:ChanSize", "core/policyengine/engine/interpreter.go:StartWorkers,ProcessAsync,StopWorkers", "core/policyengine/policyengine.go:Process", "core/exporter/exporter.go:Process", "core/processor/reader.go:Process", "core/cache/tables.go:Reset,SetProc"]}
{"id": "C108", "title": "An ECS document is written as one line of JSON that says what the document says", "statement": "What is written for an ECS document (to a file, the terminal, syslog or Elasticsearch) is a JSON text on one line, without control characters. It denotes exactly one value, in which no object has two members of the same name, and a reader of it finds at each path of names and positions the text, number or truth value that the document has there and nothing at any other path; absent parts of the document are absent from the text. The text does not depend on the order in which the maps of the document are walked. With the ECS encoder, a run from SysFlow files to a file leaves one such line for each event the policies in force select, describing that event with its entities and the rules that fired.", "quantifier": "all flattened records and rule contexts the encoder accepts (any text in any field), all orders of the document's maps; for the pipeline all inputs, policy updates and schedules", "why_tests_cant": "command lines, paths and container labels are arbitrary text, including quotes, backslashes, angle brackets and invalid UTF-8, in any combination of present and absent parts; a test covers a few documents", "anchors": ["core/exporter/encoders/ecs.go:ECSRecord,JSONData,encode,Encode", "core/exporter/transports/file.go:Export", "core/exporter/transports/terminal.go:Export", "core/exporter/transports/syslog.go:Export", "core/exporter/transports/elastic.go:Export"]}
{"id": "C109", "title": "Time stamps in ECS documents say the exact time of the event", "statement": "The text a document carries for a time in nanoseconds since 1970 is an RFC 3339 time stamp in UTC: its date is the day of the Gregorian calendar on which that time falls, its hours, minutes, seconds and fraction are the rest, to the nanosecond, for times before and after 1970. It says that time and no other, so different times have different texts, and as texts they sort like the times to the second (within a second they do not, since zeros at the end of the fraction are left out). In the JSON text of an event's document, @timestamp and event.start say the event's time, event.end its end, and process.start the creation time of its process.", "quantifier": "all 64 bit times (years 1677 to 2262), all events, entities and contexts", "why_tests_cant": "leap years, century rules, month ends, negative times and trailing zeros of the fraction each need their own case; a test samples dates, the claim is for every nanosecond", "anchors": ["core/exporter/utils/utils.go:ToIsoTimeStr", "core/exporter/encoders/ecs.go:encode,encodeEvent,encodeProcess"]}
{"id": "C110", "title": "The plugins shipped as examples", "statement": "A reader with the printer handler logs exactly one line for each process event, network flow, file flow and file event of a stream, in order, naming the executable of the process in force at that point, and nothing for other records. (Only if the process of every event is known: the first event of an unknown process crashes the program.) The action plugin adds one tag with the time to a record and changes nothing else of it. (The example processor crashes on every channel the program can give it, and when two channels are given.)", "quantifier": "all record streams the reader gets through, all records, times and channels", "why_tests_cant": "whether a process is known depends on the whole history of the stream: announcements, their states and headers; a test sees a few histories", "anchors": ["plugins/handlers/printer/printer.go:HandleNetFlow,HandleFileFlow,HandleFileEvt,HandleProcEvt,IsEntityEnabled", "plugins/processors/example/example.go:Process", "plugins/actions/example/now.go:addMyTag", "core/processor/reader.go:Process"]}
{"id": "C111", "title": "Health checks report what the stages' tests say", "statement": "When a pipeline has been loaded, exactly one verdict is logged: passed if every stage that can be tested passes its test and all tests together take less than ten seconds, failed if one fails or hangs or they take longer. (The verdict does not cover the exporter's target: no transport has a test, so a pipeline of built-in stages passes even if the target cannot be reached.)", "quantifier": "all sequences of stages, outcomes and durations of their tests, including tests that never return; both outcomes of the race at exactly ten seconds", "why_tests_cant": "the verdict is a race between the checking goroutine and a timer; a test exercises one timing", "anchors": ["driver/pipeline/pipeline.go:test,Load", "driver/pipeline/config.go:HealthChecksTimeout", "core/exporter/exporter.go:Test", "core/exporter/transports/protocol.go:TestableTransportProtocol"]}
{"id": "C112", "title": "Editing Sigma rules has only the effects one expects", "statement": "In a directory of Sigma rules, adding a rule leaves every record that meets none of its conditions exactly as it was, and adds one entry per condition met, at the rule's place, to what the others are told; renaming files (so that rules are read in another order) changes only the order of entries; and nothing changes when a rule is replaced by one that says the same: searches in another order, a search no condition refers to added, '1 of'/'all of' spelled out by names, or translations of field names that no rule uses changed. This holds record by record and for whole runs of the policy engine under every schedule.", "quantifier": "all sets of Sigma rules, all places of the edit, all records, contexts, modes, actions, numbers of workers, schedules and orders in which maps are walked", "why_tests_cant": "a statement about two programs (rule sets) and all records and schedules; Go walks maps in random order", "anchors": ["core/policyengine/policy/sigma/compiler.go:Compile,visitSearchExpression", "core/policyengine/engine/interpreter.go:Process", "core/policyengine/policyengine.go:Process"]}
{"id": "C113", "title": "A stop signal takes effect whenever it arrives and is not undone", "statement": "An interrupt or termination signal that reaches the program once all its drivers are running stops it for good: after the stop has been ordered no file driver hands over more than the one record it is holding, and no socket driver more than the one it holds or is reading, whatever else happens, the goroutine serving the signal is never blocked, and every file driver, and every socket driver not waiting for a connection, then ends within a few steps of its own; without a signal nothing stops. The same should hold for a signal at any other moment. It does not: a signal during start-up is received, carried out and then undone by the start of the drivers (for every input there is a run that processes all of it), one before the goroutine waits is dropped, every signal after the first is without effect, and a Kafka driver goes on handing over messages whatever signal came.", "quantifier": "all pipelines with any number of file, socket and Kafka drivers, all inputs, all moments and numbers of signals, all schedules", "why_tests_cant": "depends on where in the start-up, and between which reads of a shared flag, the signal falls", "anchors": ["driver/main.go:initSigTerm,run", "driver/pipeline/pipeline.go:Init,Shutdown", "driver/sysflow/filedriver.go:Run,Cleanup", "driver/sysflow/streamingdriver.go:Run,Cleanup"]}
{"id": "C114", "title": "Tuning does not change what is exported", "statement": "Two complete runs over the same input, with policies that are not monitored (or none) and the rate filter off, whose configurations differ only in the number of workers and the monitoring interval, with any channel capacities, exporter buffer sizes, clocks and interleavings, export the same records with the same rules attached, each as often: the file gets the same JSON lines and Elasticsearch the same documents, up to order; with one worker (or without policies) also in the same order, the file being the same to the byte.", "quantifier": "all inputs, policy files, configurations that differ in tuning only, channel capacities, buffer sizes, clocks and interleavings of two runs", "why_tests_cant": "The claim compares two arbitrary schedules with arbitrary sizes; a test runs a few settings under the scheduler of the day.", "anchors": ["core/policyengine/engine/interpreter.go:StartWorkers,worker", "core/policyengine/policyengine.go:Init,Process", "core/policyengine/engine/config.go:CreateConfig", "core/exporter/exporter.go:Process", "core/processor/reader.go:Process", "driver/pipeline/pipeline.go:Load"]}
{"id": "C115", "title": "How the texts in policies, records and configurations are read", "statement": "Whatever bytes a user writes: a text counts as a number exactly if it consists of digits with or without a sign and the number has 64 bits, and numbers are written so that they are read back; a text counts as a truth value exactly if it is one of twelve words; trimming takes away the white space (of Unicode) around a text and nothing else; one quote at each end, of either kind, is taken away; texts are equal up to case exactly if they differ in the case of letters only; a list separated by a character is cut at every occurrence of it and nowhere else, and joining is the inverse; the first separator cuts a setting in two; 'starts with', 'ends with', 'contains' and 'equals' mean what they say; setting a key of a map affects this key only; conversions to fewer bits keep a number modulo the range.", "quantifier": "all texts, numbers, separators, keys and maps", "why_tests_cant": "the readings must be right for every text, including those at the edge of 64 bits, with quotes of two kinds, empty ones and ones made of separators only", "anchors": ["core/policyengine/common/utils.go:TrimBoundingQuotes", "core/policyengine/source/flatrecord/operations.go:Compare", "core/policyengine/source/flatrecord/fieldmapper.go:MapStr,MapInt", "core/policyengine/engine/config.go:CreateConfig", "core/policyengine/policy/falco/compiler.go:extractList"]}
{"id": "C116", "title": "What an exported line of JSON says about the event in the trace", "statement": "Every event of a trace is exported as some text. The text is JSON exactly for events whose ancestry is known and whose pod (if any) has at most one host address, internal address, service and cluster address; and then it denotes, member by member - times, result, operation flags, process, parent, ancestors, file, second file, network addresses and ports, amounts, container, pod, node, trace, the rules that fired and their tags - exactly the attributes of the event and of the entities it was joined with, each under its name, no name twice and nothing else. In particular equal lines come from events equal in type, times, result, process, thread, user, group, amounts, ports and protocol. This holds for every line of the file the pipeline exports, whatever the schedule.", "quantifier": "all events of all five kinds, all entities joined with them (present or absent), all texts in them (also not UTF-8), all contexts, all runs of the pipeline", "why_tests_cant": "some hundred attributes, most of them with a different source for each kind of event and with missing entities; a swapped or stale slot shows only for particular combinations", "anchors": ["core/exporter/encoders/json.go:Encode,encode", "core/flattener/flattener.go:HandleProcEvt,HandleFileEvt,HandleFileFlow,HandleNetFlow,HandleK8sEvt,fillEntities", "core/policyengine/source/flatrecord/fieldmapper.go:Fields,Mapper"]}
{"id": "C117", "title": "Patterns in Sigma conditions select exactly the searches whose names fit", "statement": "In a Sigma rule, `1 of p` holds of a record iff some search whose name fits the shell-like pattern p holds, and `all of p` iff all of them do (so always if no name fits). A name fits a pattern iff it can be cut into pieces for the pattern's items: a star for any text without a slash, a question mark for one character other than a slash, a class for one of its characters, everything else for itself; `sel*` selects the names that begin with `sel`, a plain word only itself. A text that is not a pattern selects nothing.", "quantifier": "all patterns, all names, all sets of searches and orders in which they are enumerated, all records", "why_tests_cant": "The matcher searches greedily for a place after each star; that no match is missed must hold for every combination of stars and names.", "anchors": ["core/policyengine/policy/sigma/compiler.go:visitSearchExpression"]}
{"id": "C118", "title": "Editing a policy, for OpenTelemetry logs", "statement": "Two sets of policy files whose conditions do not name the processor's own attributes are compared over the same logs. Putting a rule anywhere into a file changes only what the logs it fires on are told, by exactly its name at the rule's place; a new filter only takes away the logs it fires on; a disabled or unused declaration changes nothing; exchanging two neighbouring rules only changes the order of their names; exchanging other neighbours and writing out macros changes nothing. This holds log by log and for whole runs of the plugin under any schedule and number of workers.", "quantifier": "every pair of policy texts related by an edit, every log no engine has annotated, every schedule, number of workers and enumeration order of Go maps", "why_tests_cant": "the claim compares two policies on all logs and all schedules; tests see single policies on a few logs", "anchors": ["core/policyengine/engine/interpreter.go:ProcessAsync,worker,evalFilters", "core/policyengine/source/otel/contextualizer.go:AddRules", "core/policyengine/policy/falco/compiler.go:Compile,visitExpression", "core/policyengine/policyengine.go:createPolicyInterpreter", "core/policyengine/policyengine_otel.go"]}
{"id": "C119", "title": "The pipeline up to each target", "statement": "Running the shipped pipeline with the JSON encoder until Wait returns, one sequence of lines, one per record the policies let leave (every event without policies) and each the JSON text of its record, describes all targets: the terminal shows exactly these lines; syslog and Kafka receive them in order, at most once, all of them if nothing is refused; the file consists of them if no write fails.", "quantifier": "every stream of records, policy text, schedule, number of workers, batch size, tick pattern, pattern of refused items", "why_tests_cant": "unit tests export a few records to one target; the claim relates all targets over all schedules and failure patterns", "anchors": ["core/exporter/transports/terminal.go:Export", "core/exporter/transports/syslog.go:Export", "core/exporter/transports/kafka.go:Export", "core/exporter/transports/file.go:Export", "core/exporter/exporter.go:Process", "core/exporter/encoders/json.go:Encode", "driver/pipeline/pipeline.go:Wait"]}
{"id": "C120", "title": "Evaluating an accepted policy never ends the process", "statement": "A policy that start-up accepts can be evaluated on every record: each condition yields true or false, a worker records exactly the rules that hold, and no record makes the process panic.", "quantifier": "all policy texts and parsed Sigma rules, field mappings, search orders, records, actions and modes", "why_tests_cant": "The panic depends on the combination of a field or value in a rule with the record and with which tests before it decide the outcome; tests try a few rules and records.", "anchors": ["core/policyengine/source/flatrecord/fieldmapper.go:MapStr", "core/policyengine/source/flatrecord/operations.go:Compare,compareStr", "core/policyengine/policy/predicates.go:And,Or,All,Any", "core/policyengine/policy/sigma/compiler.go:visitSearchExpression,visitSearch,visitTerm", "core/policyengine/engine/interpreter.go:ProcessAsync"]}
{"id": "C121", "title": "Evaluating a policy on an OpenTelemetry log", "statement": "A policy is accepted at start-up if its definitions do not go round in circles (for Sigma: if it has no base64Offset or cidr modifier and no empty mapping). An accepted policy can be evaluated on every log: filters and rules are tried in order, conditions are evaluated from left to right, and no log ends the process.", "quantifier": "all policy texts and parsed Sigma rules, field mappings, search orders, orders of the tag map, logs, actions that leave the log alone, and modes", "why_tests_cant": "Whether a log ends the process depends on its attributes' kinds, on which tests before it decide the outcome, and on what earlier rules noted in it; tests try a few logs.", "anchors": ["core/policyengine/source/otel/operations.go:Exists,Compare,FoldAny,getAllAttributes", "core/policyengine/policy/falco/compiler.go:visitExpression,visitTerm", "core/policyengine/policy/predicates.go:And,Or,All,Any", "core/policyengine/engine/interpreter.go:worker,evalFilters"]}
{"id": "C122", "title": "A change of the policies is looked at after ten seconds of polling; stopping the monitor returns", "statement": "After the first file event the monitor finds its event channel empty 1000 times, 10 ms apart, before it looks at the policy directory, whatever the configured interval; it looks exactly if a change of a YAML file was among the events received, and all events reported before the last poll are. Stopping it returns (proved when the directory is left alone from some moment on). That it always returns is false of the code: events that are there whenever the monitor looks hold it in the loop, and a monitor that was never started or has been stopped lets nobody go.", "quantifier": "every sequence of file events, polls, stops and watcher errors, every interleaving", "why_tests_cant": "quantifies over all interleavings of events, polls and stop requests; the loop has no bound", "anchors": ["core/policyengine/monitor/localpolicymonitor.go:dequeueFileEvents,StartMonitor,StopMonitor", "core/policyengine/policyengine.go:Cleanup"]}
{"id": "C123", "title": "A record passed to several outputs reaches each of them with its own annotations", "statement": "When a stage has several outputs, each receiver gets the same records, and what a receiver does with a record (an exporter collecting its tags, an action of a second engine adding one) neither loses a tag nor changes what another receiver exports.", "quantifier": "all schedules of the receivers, all records' tags and rules, all capacities of the arrays behind the tags, all tags added", "why_tests_cant": "The receivers run in goroutines of their own and append to the same slice; whether anything is lost depends on the spare capacity of its array and on the interleaving.", "anchors": ["core/policyengine/policyengine.go:out", "core/exporter/encoders/ecs.go:encode", "core/exporter/encoders/json.go:encode", "core/policyengine/source/flatrecord/record.go:AddTags,GetTags", "plugins/actions/example/now.go:addMyTag"]}
