{
 "claims": [
  {
   "property": "C01",
   "status": "proved",
   "theorems": [
    "C01_criteria_boolean_algebra"
   ],
   "note": ""
  },
  {
   "property": "C02",
   "status": "proved",
   "theorems": [
    "C02_string_operators",
    "C02_string_operators_defined",
    "C02_slice_equality"
   ],
   "note": ""
  },
  {
   "property": "C03",
   "status": "proved",
   "theorems": [
    "C03_numeric_operators",
    "C03_numeric_trichotomy"
   ],
   "note": ""
  },
  {
   "property": "C04",
   "status": "proved",
   "theorems": [
    "C04_record_string_comparison",
    "C04_record_numeric_comparison"
   ],
   "note": ""
  },
  {
   "property": "C05",
   "status": "proved",
   "theorems": [
    "C05_fold_any_all"
   ],
   "note": ""
  },
  {
   "property": "C06",
   "status": "proved",
   "theorems": [
    "C06_exists",
    "C06_regexp"
   ],
   "note": ""
  },
  {
   "property": "C07",
   "status": "proved",
   "theorems": [
    "C07_int_lookup",
    "C07_str_lookup",
    "C07_any_lookup",
    "C07_parent_lookup",
    "C07_names_and_command_lines",
    "C07_base_name"
   ],
   "note": ""
  },
  {
   "property": "C08",
   "status": "proved",
   "theorems": [
    "C08_annotations_accumulate"
   ],
   "note": ""
  },
  {
   "property": "C09",
   "status": "proved",
   "theorems": [
    "C09_prefilter"
   ],
   "note": ""
  },
  {
   "property": "C10",
   "status": "proved",
   "theorems": [
    "C10_condition_meaning",
    "C10_condition_compiles",
    "C10_flatrecord_models",
    "C10_flatrecord_total",
    "C10_cyclic_macro_diverges"
   ],
   "note": ""
  },
  {
   "property": "C11",
   "status": "proved",
   "theorems": [
    "C11_neq_complement",
    "C11_not_complement"
   ],
   "note": ""
  },
  {
   "property": "C12",
   "status": "partial",
   "theorems": [
    "C12_list_expansion",
    "C12_list_expansion_terminates",
    "C12_cyclic_list_diverges",
    "C12_declared_items_partial",
    "C12_empty_list_refuted",
    "C12_trailing_comma_refuted"
   ],
   "note": "Expansion is exact and terminates; a declared list holds exactly its items when non-empty, without trailing comma and without commas inside items. Refuted otherwise: `[]` and a trailing comma add the empty string as an item."
  },
  {
   "property": "C13",
   "status": "proved",
   "theorems": [
    "C13_scoped_meaning"
   ],
   "note": ""
  },
  {
   "property": "C14",
   "status": "proved",
   "theorems": [
    "C14_compiled_policy",
    "C14_all_or_nothing",
    "C14_compilation_terminates"
   ],
   "note": ""
  },
  {
   "property": "C15",
   "status": "partial",
   "theorems": [
    "C15_severity_words",
    "C15_alert_refuted"
   ],
   "note": "The word table is proved exactly; refuted as a severity scale for `alert`, which is Low."
  },
  {
   "property": "C16",
   "status": "partial",
   "theorems": [
    "C16_inline_list_refuted"
   ],
   "note": "Refuted: inline list literals are ignored by the compiler, the test is false on every record."
  },
  {
   "property": "C17",
   "status": "proved",
   "theorems": [
    "C17_condition_meaning",
    "C17_compiled_rules",
    "C17_unreadable_file",
    "C17_condition_compiles",
    "C17_flatrecord_models"
   ],
   "note": ""
  },
  {
   "property": "C18",
   "status": "proved",
   "theorems": [
    "C18_field_matcher",
    "C18_search"
   ],
   "note": ""
  },
  {
   "property": "C19",
   "status": "partial",
   "theorems": [
    "C19_windash",
    "C19_base64_round_trip",
    "C19_forms",
    "C19_offset_refuted",
    "C19_offset_name_refuted",
    "C19_combined_flags",
    "C19_chained_refuted"
   ],
   "note": "Each transformation proved against its definition. Findings recorded as theorems: the base64Offset and cidr modifiers always panic, the name base64offset of the Sigma language is ignored, and several transforming modifiers are tried separately instead of being chained."
  },
  {
   "property": "C20",
   "status": "proved",
   "theorems": [
    "C20_dropped",
    "C20_kept",
    "C20_annotations_recorded",
    "C20_falco_end_to_end"
   ],
   "note": ""
  },
  {
   "property": "C21",
   "status": "proved",
   "theorems": [
    "C21_actions",
    "C21_action_lookup"
   ],
   "note": ""
  },
  {
   "property": "C22",
   "status": "partial",
   "theorems": [
    "C22_config",
    "C22_malformed_concurrency_refuted",
    "C22_concurrency_clamped",
    "C22_error_masked_refuted"
   ],
   "note": "Defaults and parsing proved exactly, including the cases where malformed numbers are reported or an error is masked."
  },
  {
   "property": "C23",
   "status": "proved",
   "theorems": [
    "C23_exactly_once",
    "C23_in_flight",
    "C23_one_worker_in_order",
    "C23_engine"
   ],
   "note": ""
  },
  {
   "property": "C24",
   "status": "proved",
   "theorems": [
    "C24_close_after_drain",
    "C24_no_deadlock",
    "C24_no_livelock",
    "C24_completes",
    "C24_bypass"
   ],
   "note": ""
  },
  {
   "property": "C25",
   "status": "proved",
   "theorems": [
    "C25_swap"
   ],
   "note": ""
  },
  {
   "property": "C26",
   "status": "proved",
   "theorems": [
    "C26_queue",
    "C26_publishes",
    "C26_starts"
   ],
   "note": ""
  },
  {
   "property": "C27",
   "status": "proved",
   "theorems": [
    "C27_change_exact",
    "C27_otherwise_error",
    "C27_remembers_total"
   ],
   "note": ""
  },
  {
   "property": "C28",
   "status": "proved",
   "theorems": [
    "C28_tables",
    "C28_total",
    "C28_unique"
   ],
   "note": ""
  },
  {
   "property": "C29",
   "status": "proved",
   "theorems": [
    "C29_current",
    "C29_later_lookups",
    "C29_terminates"
   ],
   "note": ""
  },
  {
   "property": "C30",
   "status": "partial",
   "theorems": [
    "C30_order",
    "C30_event",
    "C30_process",
    "C30_file",
    "C30_plain",
    "C30_ancestry_partial",
    "C30_ancestry_refuted"
   ],
   "note": "Join, order and delivery proved for every stream the reader gets through. The ancestry is exactly the one found at the first look-up since the header (part of EventCtx); it is current only under the condition of C30_ancestry_partial; C30_ancestry_refuted: stale after an update of the process."
  },
  {
   "property": "C31",
   "status": "proved",
   "theorems": [
    "C31_suppressed_iff_recent_repeat",
    "C31_bookkeeping",
    "C31_count",
    "C31_output",
    "C31_off"
   ],
   "note": ""
  },
  {
   "property": "C32",
   "status": "proved",
   "theorems": [
    "C32_no_loss_no_reordering",
    "C32_batch_sizes",
    "C32_unbuffered"
   ],
   "note": "Exporter.Process as a step function over records, ticks and close; counter unbounded integer."
  },
  {
   "property": "C33",
   "status": "partial",
   "theorems": [
    "C33_each_batch",
    "C33_at_most_once_in_order",
    "C33_whole_batches_refuted",
    "C33_file_other_batches_refuted",
    "C33_kafka",
    "C33_elastic",
    "C33_otel_skips"
   ],
   "note": "Proved per batch for syslog (delivery depends on the batch's own records only), at most once, in order; Kafka per record. Whole-batch loss is refuted (a refused record leaves the first part delivered), and over a text file a short write also corrupts the first record of the next batch."
  },
  {
   "property": "C34",
   "status": "proved",
   "theorems": [
    "C34_escape_faithful",
    "C34_escape_every_string",
    "C34_utf8_unchanged",
    "C34_ends_at_quote",
    "C34_no_control"
   ],
   "note": "JSON strings as in RFC 8259 (SpecJson.jstr); texts as UTF-8 byte strings."
  },
  {
   "property": "C35",
   "status": "proved",
   "theorems": [
    "C35_record_is_json",
    "C35_one_value"
   ],
   "note": "The emitted text denotes exactly the JSON object described by SpecJson.record_value, with unique member names, for every writable record; which records are writable is C64."
  },
  {
   "property": "C36",
   "status": "partial",
   "theorems": [
    "C36_addresses_refuted",
    "C36_services_refuted",
    "C36_short_addresses_partial",
    "C36_short_services_partial",
    "C36_comma_list"
   ],
   "note": "Refuted for addresses and services with two or more elements (no comma is written); proved for at most one, and for the other lists of any length."
  },
  {
   "property": "C37",
   "status": "proved",
   "theorems": [
    "C37_policy_information",
    "C37_falco_end_to_end"
   ],
   "note": "For arbitrary records and contexts, and end to end from Falco rules."
  },
  {
   "property": "C38",
   "status": "proved",
   "theorems": [
    "C38_file_events",
    "C38_process_events",
    "C38_file_flows",
    "C38_exported"
   ],
   "note": "Existence and uniqueness of a classification for all flags, and that it is the exported one for every event; the event end is the start only when the end time is zero."
  },
  {
   "property": "C39",
   "status": "partial",
   "theorems": [
    "C39_values",
    "C39_accepted_iff",
    "C39_own_transport_refuted",
    "C39_init",
    "C39_negative_buffer_crashes",
    "C39_es_json_exports_nothing_refuted"
   ],
   "note": "Values, acceptance and Init characterised for every configuration map; refuted: a configuration without Kafka options is refused for every transport (including most shipped pipelines); es with JSON is accepted but exports nothing; a negative buffer crashes."
  },
  {
   "property": "C40",
   "status": "proved",
   "theorems": [
    "C40_env_overrides",
    "C40_env_panic"
   ],
   "note": ""
  },
  {
   "property": "C41",
   "status": "partial",
   "theorems": [
    "C41_no_crash",
    "C41_terminates",
    "C41_ends_complete",
    "C41_wait_complete",
    "C41_standard_pipeline",
    "C41_wait_cleanup_refuted",
    "C41_wait_engine_last_refuted",
    "C41_input_count_refuted",
    "C41_shared_output_refuted"
   ],
   "note": "Proved for every well-formed network of stages (one writer and one reader per channel, acyclic): no crash, termination under every schedule, completeness when Wait returns. Refuted in the cases named by the _refuted theorems: Wait does not cover Cleanup; an engine in last position; wrong number of inputs; shared output channels."
  },
  {
   "property": "C42",
   "status": "partial",
   "theorems": [
    "C42_consistent",
    "C42_kept",
    "C42_type_checked_refuted",
    "C42_malformed_reported_refuted",
    "C42_not_text_refuted"
   ],
   "note": "Consistency and stability proved for all request sequences; refuted parts: the type of a later request is ignored, and a one-word tag panics instead of being reported."
  },
  {
   "property": "C43",
   "status": "proved",
   "theorems": [
    "C43_exists",
    "C43_compare",
    "C43_decides_unique",
    "C43_foldany",
    "C43_foldall",
    "C43_regexp"
   ],
   "note": "Doubles are abstract parameters. Which values crash is part of the statement."
  },
  {
   "property": "C44",
   "status": "partial",
   "theorems": [
    "C44_bool_partial",
    "C44_bool_refuted"
   ],
   "note": "Proved for words for true and for the word False; with any other word for false (e.g. `false`) the answer is inverted (C44_bool_refuted)."
  },
  {
   "property": "C45",
   "status": "proved",
   "theorems": [
    "C45_annotations",
    "C45_tags",
    "C45_tags_once",
    "C45_frame"
   ],
   "note": ""
  },
  {
   "property": "C46",
   "status": "proved",
   "theorems": [
    "C46_membership",
    "C46_size",
    "C46_subset"
   ],
   "note": "Set as the list of map keys; range order arbitrary."
  },
  {
   "property": "C47",
   "status": "partial",
   "theorems": [
    "C47_parent_uid_numeric_refuted",
    "C47_numeric_reading_partial",
    "C47_literal_reading"
   ],
   "note": "Proved for attributes stored as integers and for literals; the general claim is false of the code for the parent's uid/gid (C47_parent_uid_numeric_refuted): the mapper returns an int32 that MapInt does not accept, so it falls back to 0."
  },
  {
   "property": "C48",
   "status": "partial",
   "theorems": [
    "C48_literal_denotes_itself_partial",
    "C48_bracket_literal_refuted",
    "C48_attribute_text",
    "C48_path_into_field"
   ],
   "note": "Proved for literals without '['; false in general (C48_bracket_literal_refuted): MapStr cuts the operand at the first '['."
  },
  {
   "property": "C49",
   "status": "partial",
   "theorems": [
    "C49_re_modifier_refuted"
   ],
   "note": "The `re` modifier: see theorem statements; the regular expression engine itself is a parameter of the model."
  },
  {
   "property": "C50",
   "status": "partial",
   "theorems": [
    "C50_list_of_maps_refuted"
   ],
   "note": ""
  },
  {
   "property": "C51",
   "status": "partial",
   "theorems": [
    "C51_zero_concurrency_refuted"
   ],
   "note": "Refuted: concurrency 0 is accepted by the configuration and then no record is ever processed and shutdown hangs (C51_zero_concurrency_refuted)."
  },
  {
   "property": "C52",
   "status": "partial",
   "theorems": [
    "C52_unmonitored_files_refuted",
    "C52_trigger"
   ],
   "note": "Refuted: .yml files and files in subdirectories are loaded but not monitored; what triggers a check is characterised exactly by C52_trigger."
  },
  {
   "property": "C53",
   "status": "partial",
   "theorems": [
    "C53_latest_policies_lost_refuted"
   ],
   "note": "Refuted: when the queue of ten is full, the newest compiled policies are dropped and never offered."
  },
  {
   "property": "C54",
   "status": "partial",
   "theorems": [
    "C54_load_complete_partial",
    "C54_load_complete_refuted"
   ],
   "note": "Proved under the hypothesis that every stage has a string processor tag; without it false (a stage without one silently truncates the pipeline with a nil error)."
  },
  {
   "property": "C55",
   "status": "partial",
   "theorems": [
    "C55_total_refuted"
   ],
   "note": "Refuted: a log without resource, an attribute without value, and prefix/suffix tests on an empty array crash the evaluation; C43_compare says these are the only crashes of comparisons on a log with resource."
  },
  {
   "property": "C56",
   "status": "partial",
   "theorems": [
    "C56_total_partial",
    "C56_total_refuted"
   ],
   "note": "Sane streams never crash the reader; refuted for cyclic parents, out-of-range states and (entities enabled) files with a nil container reference."
  },
  {
   "property": "C57",
   "status": "partial",
   "theorems": [
    "C57_relay_partial",
    "C57_events_only",
    "C57_relay_refuted"
   ],
   "note": "Events, processes and files are relayed; containers, pods and Kubernetes events reach the second handler as nil."
  },
  {
   "property": "C58",
   "status": "proved",
   "theorems": [
    "C58_attributes",
    "C58_all_attributes",
    "C58_unnamed"
   ],
   "note": "Proved for all exported attributes (C58_all_attributes: the specification covers the whole table), and for the fields of the record that no attribute shows (C58_unnamed). sfgo functions are parameters."
  },
  {
   "property": "C59",
   "status": "partial",
   "theorems": [
    "C59_same_semantics",
    "C59_distinguishes_partial",
    "C59_distinguishes_refuted"
   ],
   "note": "Equal semantics give equal bytes; the converse holds for records of the same shape whose executables and arguments have the same lengths, and is refuted otherwise: executable and arguments are hashed without separator, so distinct events are suppressed, for every hash function."
  },
  {
   "property": "C60",
   "status": "partial",
   "theorems": [
    "C60_falco_names_partial",
    "C60_falco_names_refuted",
    "C60_undefined_refuted"
   ],
   "note": "Partial: 51 names agree; refuted for fd.name (base name instead of path), proc.tty and proc.createtime (the parent's), evt.rawres (record type); twelve documented names are unknown and silently constant."
  },
  {
   "property": "C61",
   "status": "proved",
   "theorems": [
    "C61_configuration",
    "C61_nonpositive_age"
   ],
   "note": ""
  },
  {
   "property": "C62",
   "status": "proved",
   "theorems": [
    "C62_idle_flush",
    "C62_only_when_idle"
   ],
   "note": "Ticks and clock readings are events of the history."
  },
  {
   "property": "C63",
   "status": "proved",
   "theorems": [
    "C63_file_lines",
    "C63_terminal_lines"
   ],
   "note": "Write results are given per record."
  },
  {
   "property": "C64",
   "status": "partial",
   "theorems": [
    "C64_json_exactly_when_writable",
    "C64_unknown_ancestry_refuted",
    "C64_events"
   ],
   "note": "Exact characterisation of the JSON records, for arbitrary records and for flattened events; unknown ancestry and longer pod lists give texts that are not JSON (recorded as a refutation of the expected 'every exported record is JSON')."
  },
  {
   "property": "C65",
   "status": "proved",
   "theorems": [
    "C65_encodes_iff",
    "C65_events"
   ],
   "note": "For arbitrary records and for flattened events."
  },
  {
   "property": "C66",
   "status": "partial",
   "theorems": [
    "C66_distinct_indexed",
    "C66_same_identity",
    "C66_distinguishes_partial",
    "C66_lost_refuted"
   ],
   "note": "Unrestricted injectivity is false: concatenation of node and container names is ambiguous for names of different lengths, and events equal in the hashed attributes collide (refuted with two renames); proved for names of the same lengths and up to a hash collision."
  },
  {
   "property": "C67",
   "status": "proved",
   "theorems": [
    "C67_encodes_iff",
    "C67_events"
   ],
   "note": "Exact characterisation for arbitrary records; corollary for flattened events."
  },
  {
   "property": "C68",
   "status": "proved",
   "theorems": [
    "C68_document"
   ],
   "note": "The full document, for every event and context. Time formatting, protocol names, community ids and operation bits are parameters."
  },
  {
   "property": "C69",
   "status": "partial",
   "theorems": [
    "C69_kind",
    "C69_alerts_refuted"
   ],
   "note": "kind follows the flag; refuted that the engine sets it on matches."
  },
  {
   "property": "C70",
   "status": "proved",
   "theorems": [
    "C70_all_records",
    "C70_refused",
    "C70_stopped",
    "C70_pipeline"
   ],
   "note": "Proved for every file system and flag history; with the network of NetModel, when the driver's wait returns the first stage has received exactly these records."
  },
  {
   "property": "C71",
   "status": "partial",
   "theorems": [
    "C71_failure_exact",
    "C71_no_loss_refuted"
   ],
   "note": "Refuted: the driver returns without closing or waiting, and some schedule loses every record handed over so far (a subdirectory in the input directory is enough). The exact behaviour is C71_failure_exact."
  },
  {
   "property": "C72",
   "status": "partial",
   "theorems": [
    "C72_delivery",
    "C72_self_delimiting",
    "C72_close",
    "C72_own_bytes_refuted",
    "C72_run",
    "C72_no_channel",
    "C72_reconnect"
   ],
   "note": "One record per message in order proved; decoding from the message alone proved for decoders that do not read past the message, refuted otherwise (the buffer keeps bytes of earlier messages, and undecodable messages are delivered too)."
  },
  {
   "property": "C73",
   "status": "partial",
   "theorems": [
    "C73_socket_reading",
    "C73_socket_accepting_refuted",
    "C73_kafka_refuted"
   ],
   "note": "Proved for the file driver (C70_stopped) and for the socket driver while it reads; refuted while it waits for a connection (the listener is not closed) and for the Kafka driver (the request is ignored)."
  },
  {
   "property": "C74",
   "status": "partial",
   "theorems": [
    "C74_delivery",
    "C74_no_loss_refuted",
    "C74_config",
    "C74_settings"
   ],
   "note": "Delivery and configuration proved; refuted that the logs are processed before the program ends: the driver never waits."
  },
  {
   "property": "C75",
   "status": "partial",
   "theorems": [
    "C75_selection",
    "C75_socket_refuted"
   ],
   "note": "Proved for every other name; refuted for `socket`, which means the drivers of the configuration and fails if there are none, as in the shipped SysFlow pipelines."
  },
  {
   "property": "C76",
   "status": "partial",
   "theorems": [
    "C76_started",
    "C76_exit_status",
    "C76_exit_codes",
    "C76_background_errors_refuted",
    "C76_same_name_refuted"
   ],
   "note": "Proved when names are distinct; refuted: entries of the same name all get the first entry's settings, and errors of drivers other than the last are ignored."
  },
  {
   "property": "C77",
   "status": "partial",
   "theorems": [
    "C77_one_file",
    "C77_directory_partial",
    "C77_directory_refuted",
    "C77_failure",
    "C77_refused"
   ],
   "note": "Proved for a single file; for directories proved only for logs that set all fields and receivers that look before the next file is loaded; refuted in general (messages are reused across files)."
  },
  {
   "property": "C78",
   "status": "partial",
   "theorems": [
    "C78_condition_one_reading",
    "C78_policy_one_reading_partial",
    "C78_readings_decided_partial",
    "C78_absorbed_list_refuted"
   ],
   "note": "Conditions: proved. Policies: proved when every output text is followed by another field before the next '-'; refuted otherwise (the output text can absorb a following list declaration)."
  },
  {
   "property": "C79",
   "status": "proved",
   "theorems": [
    "C79_precedence",
    "C79_compiled"
   ],
   "note": "Proved from the text to the compiled criterion."
  },
  {
   "property": "C80",
   "status": "partial",
   "theorems": [
    "C80_words",
    "C80_condition_layout",
    "C80_policy_layout",
    "C80_glued_word",
    "C80_glued_key_refuted"
   ],
   "note": "Proved for words separated by white space or comments; refuted for a key glued to its value (`rule:x` is one TAG word)."
  },
  {
   "property": "C81",
   "status": "proved",
   "theorems": [
    "C81_words_total",
    "C81_words_unique",
    "C81_nothing_lost",
    "C81_verbatim_texts"
   ],
   "note": "Proved for texts without the odd quote sequences left out of the model (see DESIGN)."
  },
  {
   "property": "C82",
   "status": "partial",
   "theorems": [
    "C82_name",
    "C82_path",
    "C82_quoted",
    "C82_quoted_only",
    "C82_reserved_word_refuted",
    "C82_negative_refuted",
    "C82_number_refuted"
   ],
   "note": "Names, paths and quoted texts proved; refuted for unquoted severity words and keywords, negative numbers; numbers are lexed as names."
  },
  {
   "property": "C83",
   "status": "partial",
   "theorems": [
    "C83_text_to_policy",
    "C83_no_reading_no_policy",
    "C83_determined_partial"
   ],
   "note": "Proved; determinacy proved when outputs are closed (see C78)."
  },
  {
   "property": "C84",
   "status": "partial",
   "theorems": [
    "C84_append_ignored_refuted"
   ],
   "note": "Refuted: append is parsed and ignored."
  },
  {
   "property": "C85",
   "status": "partial",
   "theorems": [
    "C85_without_policies",
    "C85_starts_iff",
    "C85_in_force",
    "C85_bench_rules",
    "C85_bad_workers_refuted",
    "C85_monitored_refused_refuted"
   ],
   "note": "Start-up characterised exactly; refuted: a number of workers below 0 or from 2^31 on crashes the program instead of being refused, and policies in *.yml files or subdirectories only are refused when monitored. Files with syntax errors are taken to leave whole trees here; C96 covers the others."
  },
  {
   "property": "C86",
   "status": "proved",
   "theorems": [
    "C86_texts_to_output"
   ],
   "note": "Composes start-up, the grammar, the compiler, the worker and the pool. Hypotheses: texts without inline lists (C16), actions that do not change the data, performance logging off."
  },
  {
   "property": "C87",
   "status": "proved",
   "theorems": [
    "C87_eras",
    "C87_picked_up"
   ],
   "note": "Composes C86 with the monitor; the directory may look different at every check. Policy files caught half-written may crash the process instead of being refused: C96."
  },
  {
   "property": "C88",
   "status": "proved",
   "theorems": [
    "C88_end_to_end",
    "C88_bypass",
    "C88_json_file",
    "C88_conversion",
    "C88_finishes"
   ],
   "note": "Composes C28-C31, C41, C86, C32, C63, C35. Hypotheses: shipped shape of the pipeline (one output per stage), no policy monitor, a stream without ancestry cycles, actions that do not change the data, all file writes succeed (C88_json_file). The worker pool enters as the function it computes (C86) and a number of records at work."
  },
  {
   "property": "C89",
   "status": "partial",
   "theorems": [
    "C89_resolution",
    "C89_no_crash",
    "C89_own_handler",
    "C89_not_shared_refuted",
    "C89_builtin_kept_refuted"
   ],
   "note": "Resolution and no crash proved for every history. Sharing is refuted for libraries that do not register their own name (C89_not_shared_refuted) and excluded otherwise (C89_own_handler); a library may replace the built-in name (C89_builtin_kept_refuted)."
  },
  {
   "property": "C90",
   "status": "partial",
   "theorems": [
    "C90_loads_iff",
    "C90_started",
    "C90_crash_only",
    "C90_wrong_type_reported_refuted",
    "C90_order_free_refuted",
    "C90_later_pipelines",
    "C90_reload_refuted",
    "C90_processors",
    "C90_all_entries_refuted",
    "C90_library",
    "C90_handler_library"
   ],
   "note": "Exact characterisation proved (C90_loads_iff) for built-in stages, readers and processors with the flattener. Refuted parts: wrong types crash rather than being reported, stage order matters, a second pipeline of the same process cannot have flattenerchan."
  },
  {
   "property": "C91",
   "status": "proved",
   "theorems": [
    "C91_never_crashes",
    "C91_monitored",
    "C91_static",
    "C91_bypass",
    "C91_files_to_file",
    "C91_finishes",
    "C91_completes"
   ],
   "note": "Refines C88: every stage takes the atomic steps of its own model and the policy monitor may publish at any moment. Hypotheses: one output channel per stage, channels of positive capacity and at least one worker for progress, a stream without ancestry cycles, policy texts in the supported constructs, actions that do not change the data, all file writes succeed (C91_files_to_file). The flat records of one input record are sent after it has been handled completely."
  },
  {
   "property": "C92",
   "status": "proved",
   "theorems": [
    "C92_rules_to_output",
    "C92_eras",
    "C92_pipeline_monitored",
    "C92_pipeline_static"
   ],
   "note": "Composes C17, C20-C27, C86, C87 and C91 for Sigma. Hypotheses: performance logging off; rules enter as the parsed structures of the sigma-go library (its YAML front end is not modelled); Sigma rules have no actions, so registered actions are irrelevant."
  },
  {
   "property": "C93",
   "status": "proved",
   "theorems": [
    "C93_texts_to_output",
    "C93_eras",
    "C93_sigma",
    "C93_sigma_eras",
    "C93_annotations_invisible"
   ],
   "note": "Hypotheses: logs whose own scope, if any, is last (as sources and engines produce them), actions that leave the log unchanged, performance logging off, policy texts in the supported constructs. In the model a test that panics answers false; C94 says when none does. C93_turn_case shows that a rule reading the tags attribute may depend on map iteration order."
  },
  {
   "property": "C94",
   "status": "partial",
   "theorems": [
    "C94_tests_answer",
    "C94_kept_partial",
    "C94_tags_refuted"
   ],
   "note": "Holds for all keys but sf.processor.tags; refuted there (C94_tags_refuted)."
  },
  {
   "property": "C95",
   "status": "partial",
   "theorems": [
    "C95_one_encoder",
    "C95_by_turns",
    "C95_finishes",
    "C95_blurred_partial",
    "C95_race_refuted",
    "C95_one_flattener",
    "C95_suppressed_refuted"
   ],
   "note": "Proved for one encoder, for encoders taking turns, and (C95_blurred_partial) how far damage can go under any interleaving; refuted in general: for every two process events that differ in time there is an interleaving of two ECS exporters in which one alert is lost in Elasticsearch (C95_race_refuted), and of two flatteners in which a new event is suppressed (C95_suppressed_refuted)."
  },
  {
   "property": "C96",
   "status": "partial",
   "theorems": [
    "C96_agrees",
    "C96_errors_never_accepted",
    "C96_reported_partial",
    "C96_whole_reported",
    "C96_missing_parts_refuted",
    "C96_crash_refuted",
    "C96_cut_condition_reported",
    "C96_cut_texts",
    "C96_cut_named_reported",
    "C96_cut_off_refuted"
   ],
   "note": "Proved: files with errors are never accepted, and are reported when the recovered trees have all their parts (C96_whole_reported, C96_cut_condition_reported); refuted: the compiler walks the trees before it looks at the errors, so files cut off inside a declaration header crash the process (C96_cut_off_refuted), as does every recovered tree with a needed part missing (C96_missing_parts_refuted). Modelled: truncation; recovery in the middle of a file only as 'any tree with parts missing' (C96_errors_never_accepted, C96_reported_partial)."
  },
  {
   "property": "C97",
   "status": "proved",
   "theorems": [
    "C97_files_to_index",
    "C97_static"
   ],
   "note": "Composes C70, C91, C67, C68 with the bulk indexer (arrival in any order, any failures). Which events have equal identifiers: C66."
  },
  {
   "property": "C98",
   "status": "proved",
   "theorems": [
    "C98_every_moment",
    "C98_every_moment_sigma",
    "C98_every_moment_static",
    "C98_every_moment_bypass",
    "C98_comes_to_rest",
    "C98_flushed"
   ],
   "note": "Extends C91 from finished runs to every reachable state; rest and its existence need channels of capacity at least one and one worker. A record held by the exporter waits for the next tick (C98_flushed)."
  },
  {
   "property": "C99",
   "status": "partial",
   "theorems": [
    "C99_configuration",
    "C99_exporter_versions",
    "C99_any_attribute_refuted"
   ],
   "note": "C99_any_attribute_refuted: attributes with upper case letters or underscores cannot be set from the environment although the documentation names es.bulk.numWorkers etc. as settable. Reading the file (viper) is not modelled; the model starts from the decoded configuration."
  },
  {
   "property": "C100",
   "status": "proved",
   "theorems": [
    "C100_condition",
    "C100_policy",
    "C100_compiled"
   ],
   "note": "Completeness side of C78-C83: an independent surface syntax (SpecWrite: words, layout, declarations) is proved to have exactly one reading. Outside it: outputs that end their rule (C78_absorbed_list_refuted), words glued together without a space, quoted texts with escapes, nested tags and ': >'."
  },
  {
   "property": "C101",
   "status": "proved",
   "theorems": [
    "C101_never_crashes",
    "C101_every_moment",
    "C101_every_moment_sigma",
    "C101_every_moment_static",
    "C101_every_moment_bypass",
    "C101_comes_to_rest",
    "C101_flushed",
    "C101_kafka_to_kafka"
   ],
   "note": "Counterpart of C91/C98 for logs. Describes runs up to the first test that panics (C94_tags_refuted); logs of the regular shape, actions that do not change the data. The producer is assumed to accept every message (C101_kafka_to_kafka); refused ones are only logged (C39/C46 family). When the driver returns, the process exits without waiting (C74_no_loss_refuted), which is why the statements are about every moment. That proto.Marshal of one ResourceLogs is not what the driver unmarshals (LogsData) is library level and not stated."
  },
  {
   "property": "C102",
   "status": "proved",
   "theorems": [
    "C102_rule_added",
    "C102_filter_added",
    "C102_disabled",
    "C102_unused_definition",
    "C102_rules_exchanged",
    "C102_filters_exchanged",
    "C102_macro_inlined",
    "C102_modes"
   ],
   "note": "Relational: two policies, one edit. Policies with inline lists (C16) or readings that are not unique (C78) are outside; only names, descriptions and priorities of the rules told are compared, not tags and actions. Start-up of both policies is a hypothesis: an edit can make the compiler fail (C12, C82)."
  },
  {
   "property": "C103",
   "status": "partial",
   "theorems": [
    "C103_converges",
    "C103_in_force",
    "C103_settles",
    "C103_is_the_monitor",
    "C103_compiled_from",
    "C103_startup_refuted",
    "C103_back_again_refuted",
    "C103_mixed_check_refuted"
   ],
   "note": "Proved: convergence for directories of *.yaml files (no subdirectories) that never come back to an earlier content, when no change falls into a check; the monitor settles; and this world refines MonitorModel. Refuted: the start-up window, returning files, files changed during a check. inotify is assumed to report every change and lose nothing; an empty directory keeps the old policies (C26)."
  },
  {
   "property": "C104",
   "status": "partial",
   "theorems": [
    "C104_every_message_read",
    "C104_each_life",
    "C104_lost_refuted",
    "C104_all_lost_refuted",
    "C104_repeated_refuted",
    "C104_bad_message_refuted"
   ],
   "note": "Proved: coverage up to the committed offset, and the exact account of each life at the moment it ends. Refuted: no loss, no repetition, getting past a bad message. One partition, one member of the group, librdkafka's default offset handling (stored when handed over, committed in the background)."
  },
  {
   "property": "C105",
   "status": "partial",
   "theorems": [
    "C105_same_index",
    "C105_same_index_falco",
    "C105_text_at_crash",
    "C105_file_at_crash",
    "C105_same_file",
    "C105_erased_refuted"
   ],
   "note": "Proved for policies without a monitor and without the rate filter (index, file after a complete run), and with a monitor and filter for the text at a crash. Refuted: what was exported to a file survives a restart when the source does not repeat itself."
  },
  {
   "property": "C106",
   "status": "partial",
   "theorems": [
    "C106_from_exports",
    "C106_queue_holds",
    "C106_can_drain",
    "C106_bounded_refuted",
    "C106_stops_refuted",
    "C106_cleanup_last",
    "C106_flushed",
    "C106_flush_refuted",
    "C106_exit_tried",
    "C106_exit_refuted",
    "C106_exit_flushed"
   ],
   "note": "Proved for every queue and channel size and every schedule. Refuted: records keep being delivered (the delivery reports are never read), Flush returns when everything is delivered. The client library's behaviour (queue, events channel, Flush, Close) is an assumption of the model, written from confluent-kafka-go's documented behaviour."
  },
  {
   "property": "C107",
   "status": "partial",
   "theorems": [
    "C107_bounded",
    "C107_bounded_otel",
    "C107_tables",
    "C107_header",
    "C107_tables_refuted"
   ],
   "note": "Proved for the SysFlow and the OpenTelemetry pipeline, at every moment of every run, and for the process table. Refuted: the reader's tables stay bounded without headers. Records are counted, not bytes; the librdkafka and socket buffers of the sources and targets are outside."
  },
  {
   "property": "C108",
   "status": "proved",
   "theorems": [
    "C108_document",
    "C108_read",
    "C108_one_line",
    "C108_order",
    "C108_files_to_file"
   ],
   "note": "encoding/json is modelled as its documentation and source describe it (sorted map keys, struct fields in order, omitempty, HTML escaping, replacement of invalid UTF-8); numbers are integers or truth values. Time stamps are C109."
  },
  {
   "property": "C109",
   "status": "proved",
   "theorems": [
    "C109_calendar",
    "C109_timestamp",
    "C109_injective",
    "C109_order",
    "C109_document"
   ],
   "note": "Package time (Unix, absDate, Format of RFC3339Nano) is modelled from its Go source, in unbounded integers with four-digit years."
  },
  {
   "property": "C110",
   "status": "partial",
   "theorems": [
    "C110_printer_partial",
    "C110_printer_refuted",
    "C110_processor_refuted",
    "C110_action"
   ],
   "note": "Proved for streams whose events have known processes, and that all others crash the printer; the example processor is refuted. fmt formatting of %s and %d is modelled."
  },
  {
   "property": "C111",
   "status": "partial",
   "theorems": [
    "C111_passed",
    "C111_failed",
    "C111_reported",
    "C111_target_refuted"
   ],
   "note": "Proved: what is logged. Refuted: that it says anything about the exporter's target."
  },
  {
   "property": "C112",
   "status": "proved",
   "theorems": [
    "C112_rule_added",
    "C112_rules_reordered",
    "C112_same_sense",
    "C112_searches_reordered",
    "C112_unused_search",
    "C112_spelled_out",
    "C112_other_mappings"
   ],
   "note": "As C102, for Sigma rules. Rules are the trees sigma-go's parser returns (its parsing is not modelled); double negation is left out because truth is stated constructively."
  },
  {
   "property": "C113",
   "status": "partial",
   "theorems": [
    "C113_stop_holds",
    "C113_stop_proceeds",
    "C113_drivers_end",
    "C113_socket_stops",
    "C113_asks",
    "C113_kafka_refuted",
    "C113_exit_status",
    "C113_no_signal",
    "C113_second_signal_refuted",
    "C113_early_signal_refuted",
    "C113_early_runs_refuted",
    "C113_dropped_refuted"
   ],
   "note": "Holds for a signal received once all drivers run (C113_stop_holds, _stop_proceeds, _drivers_end, _socket_stops). A Kafka driver never stops (C113_kafka_refuted). False for signals during start-up, before the goroutine waits, and after the first (the _refuted theorems: real runs for every input). The flag is read and written in single steps; only the flag, sends and ends of the drivers are kept."
  },
  {
   "property": "C114",
   "status": "proved",
   "theorems": [
    "C114_same_records",
    "C114_same_lines",
    "C114_same_documents",
    "C114_one_worker",
    "C114_filter_matters"
   ],
   "note": "Compares two complete lives of the pipeline of ChainModel with any clocks, capacities, buffers, start times and interleavings. The hypothesis that the rate filter is off is needed: which repeats are suppressed depends on when they are processed (C114_filter_matters gives two complete lives, 1 record against 2). With two or more workers nothing is claimed about the order."
  },
  {
   "property": "C115",
   "status": "proved",
   "theorems": [
    "C115_integer",
    "C115_written",
    "C115_truth",
    "C115_trimmed",
    "C115_unquoted",
    "C115_small",
    "C115_lists",
    "C115_cut",
    "C115_parts",
    "C115_maps",
    "C115_wrapped"
   ],
   "note": "Pins down the helpers of GoBase that the specifications of other properties share with the model (the functions of package strings and strconv, TrimBoundingQuotes, map access). White space is that of Unicode, exactly as TrimSpace reads it; letters are those of ASCII: Go also knows other letters."
  },
  {
   "property": "C116",
   "status": "proved",
   "theorems": [
    "C116_line",
    "C116_apart",
    "C116_file"
   ],
   "note": "Joins C58 (what the flattener stores) and C35/C64 (what the encoder writes) into one statement that mentions neither slots nor the encoder's tables. Library functions of sfgo (names of types, flags, files) are parameters; that their names of types are PE, NF, FF, FE, KE and that flag names need no escaping are hypotheses (names_types, plain_name). The path of a second file is written with the target of a link, unlike the attribute a policy reads. The unconditional form is false: see C36 and C64."
  },
  {
   "property": "C117",
   "status": "proved",
   "theorems": [
    "C117_selected",
    "C117_sound",
    "C117_no_pattern",
    "C117_usual",
    "C117_conditions"
   ],
   "note": "Full grammar of path.Match patterns (stars, question marks, classes, escapes), for every pattern and every name; for patterns with classes, names without slashes (C117_slash_case shows why: Go's search is greedy). Sigma condition patterns contain only letters, digits, underscores and stars, for which the byte-per-character model is exact."
  },
  {
   "property": "C118",
   "status": "partial",
   "theorems": [
    "C118_rule_added",
    "C118_filter_added",
    "C118_idle",
    "C118_rules_exchanged",
    "C118_filters_exchanged",
    "C118_macro_inlined",
    "C118_own_attributes_refuted"
   ],
   "note": "Proved for policies that never name the processor's own attributes (sf.processor.rules, sf.processor.tags): the exact effect, log by log and for whole runs, of adding a rule or filter anywhere, adding disabled or unused declarations, exchanging neighbours and inlining macros. C118_own_attributes_refuted: a policy that does name them can have a rule start firing because another was put before it."
  },
  {
   "property": "C119",
   "status": "proved",
   "theorems": [
    "C119_with_policies",
    "C119_bypass"
   ],
   "note": "One theorem per kind of configuration (with policies, bypass) for the shipped network of C88 up to the terminal, syslog, Kafka and file targets with the JSON encoder; refused items of syslog and Kafka in any pattern."
  },
  {
   "property": "C120",
   "status": "partial",
   "theorems": [
    "C120_falco_operands",
    "C120_falco_never",
    "C120_falco_values",
    "C120_sigma_evaluation",
    "C120_sigma_accepted",
    "C120_sigma_safe",
    "C120_sigma_same",
    "C120_worker",
    "C120_sigma_crash_refuted"
   ],
   "note": "Falco policies read from text never contain such an operand; a Sigma field or value that is a field name followed by an opening bracket is accepted and ends the process at the first record whose evaluation reaches it (C120_sigma_crash_refuted); the safe policies are characterised."
  },
  {
   "property": "C121",
   "status": "partial",
   "theorems": [
    "C121_falco",
    "C121_sigma",
    "C121_falco_accepted",
    "C121_sigma_accepted",
    "C121_falco_safe_partial",
    "C121_sigma_safe_partial",
    "C121_bare_refuted"
   ],
   "note": "Proved what becomes of every log, panics included, and that it is what C93 says where nothing panics. No log with a resource and no value of a kind that crashes a test ends the process, unless the policy tests the tags the engine itself notes; refuted for logs without a resource (C121_bare_refuted), and for sf.processor.tags (C94_tags_refuted)."
  },
  {
   "property": "C122",
   "status": "partial",
   "theorems": [
    "C122_check",
    "C122_covers",
    "C122_stop_returns_partial",
    "C122_stop_returns_refuted",
    "C122_stop_again_refuted"
   ],
   "note": "The look and its events proved exactly; that StopMonitor returns is proved when no more events come and refuted otherwise (events without a gap; a monitor never started or already stopped). The look itself and recompilation are C26, C27, C103 and are one step here, assumed to return."
  },
  {
   "property": "C123",
   "status": "partial",
   "theorems": [
    "C123_exporters_partial",
    "C123_shared_refuted",
    "C123_full_partial",
    "C123_json_partial",
    "C123_json_refuted"
   ],
   "note": "Proved for exporters only, and for any exporters with an engine if the array behind the tags has no room; refuted with an engine if it has room (a tag is lost), and for the JSON exporter if a tag is added between its two readings (no comma is written). One append is one step; what the exporter's rules are is fixed beforehand."
  }
 ]
}