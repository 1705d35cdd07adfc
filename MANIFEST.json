{
 "claims": [
  {
   "property": "C01",
   "status": "proved",
   "theorems": [
    "C01_keys_parse_as_documented"
   ],
   "note": "spec_path is an independent tokenise-and-split specification"
  },
  {
   "property": "C02",
   "status": "proved",
   "theorems": [
    "C02_escape_join",
    "C02_escape_exactly"
   ],
   "note": ""
  },
  {
   "property": "C03",
   "status": "proved",
   "theorems": [
    "C03_put_then_get",
    "C03_put_then_get_shared"
   ],
   "note": "second theorem allows shared containers, only excludes cycles"
  },
  {
   "property": "C04",
   "status": "proved",
   "theorems": [
    "C04_put_frame",
    "C04_contents_determined",
    "C04_shared_containers_refuted"
   ],
   "note": "the witness theorem shows the sharing caveat of the statement"
  },
  {
   "property": "C05",
   "status": "proved",
   "theorems": [
    "C05_put_outcomes",
    "C05_error_kinds",
    "C05_put_nil",
    "C05_failed_put_changes_nothing"
   ],
   "note": ""
  },
  {
   "property": "C06",
   "status": "proved",
   "theorems": [
    "C06_tryput_existing",
    "C06_tryput_missing",
    "C06_tryput_rest"
   ],
   "note": ""
  },
  {
   "property": "C07",
   "status": "proved",
   "theorems": [
    "C07_get_is_lookup"
   ],
   "note": ""
  },
  {
   "property": "C08",
   "status": "partial",
   "theorems": [
    "C08_delete_returns_and_removes",
    "C08_delete_contents_partial",
    "C08_delete_siblings_refuted"
   ],
   "note": "finding: Delete of a nested key removes the whole top-level field; the sibling clause is refuted, the exact behaviour is proved"
  },
  {
   "property": "C09",
   "status": "proved",
   "theorems": [
    "C09_no_panic",
    "C09_panics_exactly",
    "C09_no_panic_any_event",
    "C09_nil_panics_refuted"
   ],
   "note": "the last theorem is the parenthesised caveat: nil values do panic"
  },
  {
   "property": "C10",
   "status": "proved",
   "theorems": [
    "C10_sequences_refine_nested_map",
    "C10_sequences_with_nil"
   ],
   "note": ""
  },
  {
   "property": "C11",
   "status": "proved",
   "theorems": [
    "C11_put_stores_the_pointer",
    "C11_cycles_and_sharing_reachable"
   ],
   "note": ""
  },
  {
   "property": "C48",
   "status": "proved",
   "theorems": [
    "C48_type_names"
   ],
   "note": "finite domain plus all other numbers"
  },
  {
   "property": "C12",
   "status": "proved",
   "theorems": [
    "C12_event_or_error",
    "C12_never_neither"
   ],
   "note": ""
  },
  {
   "property": "C13",
   "status": "proved",
   "theorems": [
    "C13_in_order_until_failure",
    "C13_later_processors_do_not_run",
    "C13_start_order"
   ],
   "note": ""
  },
  {
   "property": "C14",
   "status": "proved",
   "theorems": [
    "C14_ignore_failure",
    "C14_handlers_run_first"
   ],
   "note": ""
  },
  {
   "property": "C15",
   "status": "proved",
   "theorems": [
    "C15_ignore_missing",
    "C15_other_errors",
    "C15_missing_errors"
   ],
   "note": ""
  },
  {
   "property": "C16",
   "status": "proved",
   "theorems": [
    "C16_on_failure",
    "C16_no_failure_no_handlers"
   ],
   "note": ""
  },
  {
   "property": "C17",
   "status": "proved",
   "theorems": [
    "C17_global_on_failure",
    "C17_not_run_on_success"
   ],
   "note": ""
  },
  {
   "property": "C18",
   "status": "proved",
   "theorems": [
    "C18_conservation",
    "C18_counters_never_decrease"
   ],
   "note": ""
  },
  {
   "property": "C19",
   "status": "partial",
   "theorems": [
    "C19_errors_counted_partial",
    "C19_recovered_errors_counted_refuted"
   ],
   "note": "finding: recovered errors are counted; the exact accounting is proved, the documented one refuted"
  },
  {
   "property": "C20",
   "status": "partial",
   "theorems": [
    "C20_cancel_and_drop_have_no_effect",
    "C20_cancel_refuted"
   ],
   "note": "finding: Cancel has no effect; documented contract refuted, the actual behaviour proved"
  },
  {
   "property": "C21",
   "status": "partial",
   "theorems": [
    "C21_drop_refuted",
    "C21_nothing_is_ever_discarded"
   ],
   "note": "finding: Drop has no effect; documented contract refuted, the actual behaviour proved"
  },
  {
   "property": "C22",
   "status": "proved",
   "theorems": [
    "C22_at_most_once",
    "C22_built_pipelines_run_each_processor_at_most_once"
   ],
   "note": ""
  },
  {
   "property": "C23",
   "status": "proved",
   "theorems": [
    "C23_ids_unique"
   ],
   "note": ""
  },
  {
   "property": "C24",
   "status": "partial",
   "theorems": [
    "C24_metrics_partial",
    "C24_global_on_failure_refuted"
   ],
   "note": "finding: the collectors of global on_failure processors are missing from Metrics(); exact content proved"
  },
  {
   "property": "C25",
   "status": "proved",
   "theorems": [
    "C25_new_accepts_exactly_valid_configs",
    "C25_valid_entries",
    "C25_never_panics",
    "C25_config_argument_panics"
   ],
   "note": ""
  },
  {
   "property": "C26",
   "status": "proved",
   "theorems": [
    "C26_structure_preserved"
   ],
   "note": ""
  },
  {
   "property": "C27",
   "status": "proved",
   "theorems": [
    "C27_condition_ignored"
   ],
   "note": ""
  },
  {
   "property": "C33",
   "status": "proved",
   "theorems": [
    "C33_first_registration_wins",
    "C33_register_outcome",
    "C33_unknown_name_fails",
    "C33_register_crashes",
    "C33_new_processor",
    "C33_not_registered",
    "C33_must_register",
    "C33_struct_error_refuted"
   ],
   "note": "finding: a constructor whose error type has no nil passes Register, and NewProcessor then crashes"
  },
  {
   "property": "C49",
   "status": "partial",
   "theorems": [
    "C49_ids_of_different_pipelines_partial",
    "C49_measured_ids",
    "C49_ids_collide_refuted"
   ],
   "note": "finding: ids containing dots can collide with those of global on_failure processors; proved for dot-free pipeline ids, and for any ids as far as the processors whose metrics are exposed are concerned (no bracket in type names)"
  },
  {
   "property": "C29",
   "status": "partial",
   "theorems": [
    "C29_set_value",
    "C29_set_copy",
    "C29_set_nothing",
    "C29_copy_into_itself_refuted"
   ],
   "note": "proved for every configuration except copying an object into itself, which makes the event contain itself (finding)"
  },
  {
   "property": "C30",
   "status": "partial",
   "theorems": [
    "C30_lowercase_partial",
    "C30_uppercase_partial",
    "C30_array_of_strings_refuted"
   ],
   "note": "finding: the documented conversion of arrays of strings is an error instead; everything else proved"
  },
  {
   "property": "C31",
   "status": "partial",
   "theorems": [
    "C31_append_partial",
    "C31_append_to_string_refuted",
    "C31_put_error_ignored_refuted",
    "C31_duplicates_refuted"
   ],
   "note": "exact behaviour proved; findings: append to a string is lost, storing errors are swallowed, allow_duplicates=false is ignored"
  },
  {
   "property": "C32",
   "status": "partial",
   "theorems": [
    "C32_remove_does_nothing_refuted",
    "C32_field_survives_refuted"
   ],
   "note": "finding: remove is not implemented, the property is false; proved that it never does anything"
  },
  {
   "property": "C46",
   "status": "proved",
   "theorems": [
    "C46_append",
    "C46_append_nil"
   ],
   "note": ""
  },
  {
   "property": "C28",
   "status": "partial",
   "theorems": [
    "C28_isolation_partial",
    "C28_stateless_isolation_partial",
    "C28_set_array_refuted"
   ],
   "note": "proved for every history of pipelines of built-in processors with plain set values (and any stateless processors); finding: set with an array value leaks appended elements between events"
  },
  {
   "property": "C34",
   "status": "partial",
   "theorems": [
    "C34_exact",
    "C34_round_trip_partial",
    "C34_bytes_round_trip_partial",
    "C34_nested_dot_refuted",
    "C34_nil_slice_refuted",
    "C34_empty_event_refuted",
    "C34_nil_item_refuted"
   ],
   "note": "Exact result of the conversion round trip for every tree-shaped event without nil values and every map order; identity (also through bytes) when names and values are plain. Refuted for dotted nested names, nil slices/maps, empty events and nil items, with events built by Put."
  },
  {
   "property": "C35",
   "status": "partial",
   "theorems": [
    "C35_round_trip_partial",
    "C35_order_irrelevant",
    "C35_decoded_round_trips",
    "C35_typed_nil_refuted"
   ],
   "note": "Every well-formed message, any map order, up to map order; every decoded message exactly. Refuted for typed nils (Value_String_{nil})."
  },
  {
   "property": "C36",
   "status": "proved",
   "theorems": [
    "C36_size_exact",
    "C36_size_exact_log",
    "C36_size_exact_value",
    "C36_sized_buffer",
    "C36_panics_iff_nil_item"
   ],
   "note": ""
  },
  {
   "property": "C37",
   "status": "proved",
   "theorems": [
    "C37_unmarshal_total",
    "C37_unmarshal_total_log",
    "C37_unmarshal_total_value"
   ],
   "note": "No panic and termination for every byte string shorter than 2^63; stack depth not modelled."
  },
  {
   "property": "C38",
   "status": "proved",
   "theorems": [
    "C38_varint_round_trip",
    "C38_varint_written",
    "C38_signed_round_trip",
    "C38_varint_injective"
   ],
   "note": ""
  },
  {
   "property": "C39",
   "status": "partial",
   "theorems": [
    "C39_panics_iff",
    "C39_no_panic_partial",
    "C39_decoded_panics_refuted"
   ],
   "note": "ToLogEvent panics exactly on messages with a nil, kindless or typed-nil value; the property is false: nine accepted bytes make it panic."
  },
  {
   "property": "C47",
   "status": "proved",
   "theorems": [
    "C47_conservation_any_schedule",
    "C47_quiescent",
    "C47_monotone",
    "C47_one_of_event_or_error",
    "C47_alone_is_sequential"
   ],
   "note": "Sequentially consistent interleaving of steps; counters are atomic. A call that panicked counts as in progress forever."
  },
  {
   "property": "C40",
   "status": "partial",
   "theorems": [
    "C40_exact",
    "C40_round_trip_partial",
    "C40_nested_dot_refuted",
    "C40_nil_slice_refuted",
    "C40_nil_value_refuted"
   ],
   "note": "What comes back is stated exactly for every event and map order; equality for plain events; false for dotted nested names, nil slices and nil values."
  },
  {
   "property": "C41",
   "status": "partial",
   "theorems": [
    "C41_converts_or_refuses",
    "C41_refused_iff_partial",
    "C41_order_irrelevant",
    "C41_interface_field_refuted",
    "C41_pointer_to_uintptr_refuted",
    "C41_nil_error_field_panics",
    "C41_colliding_keys_refuted"
   ],
   "note": "Exact characterisation for every finite Go value (result or refusal); the documented iff holds for values without interface fields/pointees and uintptrs, and is false otherwise."
  },
  {
   "property": "C50",
   "status": "proved",
   "theorems": [
    "C50_ToEvent_fields"
   ],
   "note": ""
  },
  {
   "property": "C42",
   "status": "partial",
   "theorems": [
    "C42_exact",
    "C42_refused",
    "C42_round_trip_partial",
    "C42_decoded_round_trips",
    "C42_written_text_stays",
    "C42_parser_total",
    "C42_integer_refuted",
    "C42_timestamp_refuted",
    "C42_null_refuted",
    "C42_nil_slice_refuted",
    "C42_utf8_refuted",
    "C42_names_collapse_refuted",
    "C42_large_integers_refuted",
    "C42_nan_refuted"
   ],
   "note": "The statement is false for many events (refutations); what comes back is proved exactly for every encodable event, refusal is characterised, and every event that came from JSON text round-trips, its text too, byte for byte. encoding/json is modelled byte by byte; strconv's float writing is a parameter with the contract that it reads back, which C64 shows of the model of it."
  },
  {
   "property": "C43",
   "status": "proved",
   "theorems": [
    "C43_text_correct",
    "C43_text_unambiguous",
    "C43_injective"
   ],
   "note": "All int64 nanosecond counts; calendar arithmetic of package time modelled, specification written independently (leap-year counting)."
  },
  {
   "property": "C44",
   "status": "partial",
   "theorems": [
    "C44_exact",
    "C44_reserved_names",
    "C44_round_trip_partial",
    "C44_config_exact",
    "C44_config_round_trip_partial",
    "C44_integer_refuted",
    "C44_case_refuted",
    "C44_override_refuted",
    "C44_unreadable_refuted"
   ],
   "note": "What comes back is stated exactly for every option block and whole definition whose option names are not variants of id/if/on_failure; false otherwise (refutations)."
  },
  {
   "property": "C51",
   "status": "proved",
   "theorems": [
    "C51_processor_sees_the_event",
    "C51_pipeline_of_one"
   ],
   "note": ""
  },
  {
   "property": "C45",
   "status": "partial",
   "theorems": [
    "C45_one_output_per_line_partial",
    "C45_output_lines",
    "C45_lines_independent_partial",
    "C45_lines_exist",
    "C45_lines_unique",
    "C45_lines_any_reader",
    "C45_trim",
    "C45_long_line_refuted",
    "C45_write_error",
    "C45_lost_output_refuted",
    "C45_cycle_kills_refuted"
   ],
   "note": "findings: a line of 64 KiB ends the run, write errors are not returned, a set processor can build a cyclic event whose encoding never ends; the rest is proved for every pipeline and input, independence of lines for built-in processors with plain set values"
  },
  {
   "property": "C52",
   "status": "partial",
   "theorems": [
    "C52_decodes",
    "C52_decodes_log",
    "C52_decodes_value",
    "C52_refuses",
    "C52_map_entries",
    "C52_encodes",
    "C52_unknown_fields",
    "C52_overrunning_entry_refuted",
    "C52_entry_wire_type_refuted"
   ],
   "note": "Exact: accepted bytes and their meaning are given by an inductive grammar that states the two deviations from protobuf explicitly (finding: a map entry's key and value may run past the entry's end, and their wire types are not checked); everything else, including well-formed map entries, follows the encoding rules."
  },
  {
   "property": "C53",
   "status": "proved",
   "theorems": [
    "C53_reads",
    "C53_refuses",
    "C53_unambiguous",
    "C53_meaning_unique",
    "C53_writes"
   ],
   "note": "encoding/json is modelled, not assumed; strconv's float formatting is a parameter with the contract that it reads back, met by the model of C64"
  },
  {
   "property": "C54",
   "status": "proved",
   "theorems": [
    "C54_as_if_alone",
    "C54_no_new_panics",
    "C54_counters_add_up",
    "C54_rest_untouched",
    "C54_no_shared_memory",
    "C54_any_stateless"
   ],
   "note": "one step per event operation, in the order scheduled; C54_no_shared_memory shows there is nothing to race on; with an array as set value the claim is false (C28_set_array_refuted)"
  },
  {
   "property": "C55",
   "status": "proved",
   "theorems": [
    "C55_pipeline_semantics",
    "C55_start",
    "C55_fields",
    "C55_shows_one",
    "C55_get",
    "C55_no_crash_shared",
    "C55_specifications_agree",
    "C55_pipeline_semantics_partial",
    "C55_no_crash",
    "C55_no_copy",
    "C55_total",
    "C55_null_crashes_refuted",
    "C55_nil_event_crashes_refuted",
    "C55_community_id_refuted"
   ],
   "note": "exact for every configuration, copies included: C55_pipeline_semantics on events that may share; C55_pipeline_semantics_partial is the older, simpler statement on nested maps, which leaves out copies of arrays and objects; C55_specifications_agree ties the two.  Findings: a JSON null in the event crashes the pipeline whatever its options, a nil event too, community_id does nothing"
  },
  {
   "property": "C56",
   "status": "proved",
   "theorems": [
    "C56_command",
    "C56_three_ways",
    "C56_marshal",
    "C56_no_circle",
    "C56_command_without_sharing",
    "C56_never_crashes"
   ],
   "note": "lines before the first of 65536 bytes or more (C45); copies included: the command dies exactly if the pipeline makes the event of some line contain itself, which takes copy_from"
  },
  {
   "property": "C57",
   "status": "proved",
   "theorems": [
    "C57_imports",
    "C57_twice_panics",
    "C57_new_builds_what_is_defined",
    "C57_definition_semantics",
    "C57_definition_semantics_partial",
    "C57_ignore_failure_refuted"
   ],
   "note": "the configuration library is a parameter: unpacking into a struct type gives a value of that type, the value of set is plain.  C57_definition_semantics_partial is the older statement on nested maps.  Finding: ignore_failure is not an option of lowercase, uppercase, append, remove; writing it has no effect"
  },
  {
   "property": "C58",
   "status": "partial",
   "theorems": [
    "C58_load_refuses",
    "C58_load_accepts",
    "C58_load_forgets",
    "C58_load_null_refuted",
    "C58_calls",
    "C58_calls_without_sharing",
    "C58_no_crash_without_sharing",
    "C58_not_loaded_refuted",
    "C58_null_event_refuted",
    "C58_null_field_refuted"
   ],
   "note": "exact for every sequence of texts but null; as claimed for events on which the pipeline neither crashes nor makes the event contain itself.  False otherwise, each a crash of the host program: the definition null, Process before a successful Load, the event null, null fields; a Load that fails after decoding forgets the pipeline loaded before, so the next Process crashes"
  },
  {
   "property": "C59",
   "status": "partial",
   "theorems": [
    "C59_executes",
    "C59_executes_without_sharing",
    "C59_refuses",
    "C59_null_refuted"
   ],
   "note": "exact; panics for the definition null, events that crash the pipeline and results that cannot be written as JSON"
  },
  {
   "property": "C60",
   "status": "partial",
   "theorems": [
    "C60_shown",
    "C60_one",
    "C60_counts",
    "C60_side_by_side",
    "C60_reload_refuted",
    "C60_unregister_refuted",
    "C60_bracket_refuted"
   ],
   "note": "exact for every history; as claimed for pipelines with different ids whose type names contain no bracket.  False for two pipelines with the same id (reload): the errors of the Prometheus registry are dropped, the second's counters are never shown, and unregistering either hides both.  client_golang's registry is modelled: identity by name and label values, hash collisions excluded"
  },
  {
   "property": "C61",
   "status": "proved",
   "theorems": [
    "C61_definition",
    "C61_block",
    "C61_unambiguous"
   ],
   "note": "acceptance and result as an equivalence with an independent specification (ConfigMeaning.v) over the RFC 8259 grammar of C53.  Finding: a list key given again merges into the first, and entries a shorter list cut off come back with a longer one (C61_ex)"
  },
  {
   "property": "C62",
   "status": "proved",
   "theorems": [
    "C62_append_exactly",
    "C62_any_layout",
    "C62_arrays_are_lists",
    "C62_eventutil_append",
    "C62_pipelines",
    "C62_capacities_do_not_show",
    "C62_shared_slice_refuted"
   ],
   "note": "exact effect of every append under any aliasing; simulation of the memory-level model by EventHeap for all programs that share slices only as s[i:j:j], which the built-in processors and Append always satisfy.  False for event.Array(other.Array...) with spare capacity (C62_shared_slice_refuted)"
  },
  {
   "property": "C63",
   "status": "proved",
   "theorems": [
    "C63_same",
    "C63_only_processors_panic",
    "C63_nothing_recovers",
    "C63_call_panics",
    "C63_counters_after_panic",
    "C63_conservation_with_panics",
    "C63_balance_refuted",
    "C63_no_rollback_refuted",
    "C63_put_panics_before_writing"
   ],
   "note": "exact.  Findings: the balance of C18 is lost after a recovered panic, and the changes made to the event before the panic stay"
  },
  {
   "property": "C64",
   "status": "proved",
   "theorems": [
    "C64_shortest",
    "C64_text",
    "C64_refused",
    "C64_reads_back",
    "C64_distinct",
    "C64_format",
    "C64_value",
    "C64_event"
   ],
   "note": "FormatFloat is modelled by search over 1 to 17 digits, not by the Ryu algorithm; the result is proved to be the unique shortest, closest decimal"
  },
  {
   "property": "C65",
   "status": "proved",
   "theorems": [
    "C65_new",
    "C65_refuses",
    "C65_frame",
    "C65_accumulates",
    "C65_merges",
    "C65_in_place",
    "C65_reuse",
    "C65_exact",
    "C65_history",
    "C65_shown",
    "C65_replaces_refuted",
    "C65_others_refuted",
    "C65_failed_refuted"
   ],
   "note": "exact for every value that leads to no other in two ways; the frame for any.  No two values share a backing array in the model (C62 has that).  Findings: objects are merged rather than replaced, stale elements come back, a failed decode leaves the value changed"
  },
  {
   "property": "C66",
   "status": "proved",
   "theorems": [
    "C66_start_new",
    "C66_start",
    "C66_history",
    "C66_alone",
    "C66_together",
    "C66_order",
    "C66_null_kept",
    "C66_decode_every_null",
    "C66_decode_refuted"
   ],
   "note": "programs that put a value of one event into another are outside; finding: json.Unmarshal into a null obtained from an event changes every null of every event"
  },
  {
   "property": "C67",
   "status": "proved",
   "theorems": [
    "C67_comment",
    "C67_stays_comment",
    "C67_width",
    "C67_wrapped_at",
    "C67_wide_indent_refuted",
    "C67_descriptions_are_no_code",
    "C67_stays_comment_refuted",
    "C67_descriptions_are_no_code_refuted"
   ],
   "note": "proved for comments of at most 2048 bytes; finding: longer ones are garbled because slices of the scanner's buffer are kept, and text of a description can become Go code"
  },
  {
   "property": "C68",
   "status": "proved",
   "theorems": [
    "C68_separators",
    "C68_words",
    "C68_inside_words",
    "C68_letters",
    "C68_exported",
    "C68_imports",
    "C68_types",
    "C68_fields",
    "C68_distinct_refuted",
    "C68_types_refuted"
   ],
   "note": "ASCII names; the fields and defaults of the generated struct for descriptions of at most 2048 bytes; findings: different names may collide, list and map types of imported types are generated wrong"
  },
  {
   "property": "C69",
   "status": "proved",
   "theorems": [
    "C69_other_files",
    "C69_process_stays_away",
    "C69_process_written",
    "C69_idempotent"
   ],
   "note": "gofmt and go/parser are parameters that agree with the template; a failing write leaves the old file"
  },
  {
   "property": "C70",
   "status": "proved",
   "theorems": [
    "C70_row",
    "C70_default",
    "C70_default_refuted",
    "C70_sections",
    "C70_sections_refuted"
   ],
   "note": "findings: false defaults are not shown, of an entry with two keys one is left out"
  },
  {
   "property": "C71",
   "status": "proved",
   "theorems": [
    "C71_json_of_fields",
    "C71_processing_of_fields",
    "C71_protobuf",
    "C71_map",
    "C71_protobuf_refuted",
    "C71_json_null_crashes_refuted"
   ],
   "note": "findings: a dot in a nested name comes back escaped; a JSON null that is sent crashes the receiver, in an array the sender"
  },
  {
   "property": "C72",
   "status": "proved",
   "theorems": [
    "C72_lowercase",
    "C72_uppercase",
    "C72_append",
    "C72_remove",
    "C72_community_id",
    "C72_set",
    "C72_distinct",
    "C72_nan_refuted",
    "C72_nested_refuted"
   ],
   "note": "findings: a NaN or infinite value prints only set=, the error is lost; an integer and a float in an array print alike"
  },
  {
   "property": "C73",
   "status": "proved",
   "theorems": [
    "C73_printed",
    "C73_numbers",
    "C73_distinct",
    "C73_arrays_refuted",
    "C73_cycle_refuted"
   ],
   "note": "findings: arrays with different items print alike; a value that contains itself is never printed to the end"
  },
  {
   "property": "C74",
   "status": "proved",
   "theorems": [
    "C74_marshal",
    "C74_sized_buffer",
    "C74_marshal_to",
    "C74_XXX_marshal",
    "C74_XXX_marshal_exact",
    "C74_nil_item",
    "C74_XXX_marshal_refuted",
    "C74_beyond_length_refuted"
   ],
   "note": "exact for every message and buffer; findings: XXX_Marshal returns wrong bytes unless the capacity is Size(), MarshalTo writes past the length of a buffer up to its capacity"
  },
  {
   "property": "C75",
   "status": "proved",
   "theorems": [
    "C75_loads",
    "C75_one_reading",
    "C75_one_value",
    "C75_misspelled_ignored"
   ],
   "note": "exact for every document; finding: a misspelled member of the definition is silently ignored"
  },
  {
   "property": "C76",
   "status": "proved",
   "theorems": [
    "C76_starts",
    "C76_does_what_is_written",
    "C76_never_crashes",
    "C76_null_document_refuted"
   ],
   "note": "finding: an empty or null definition crashes the program (pipeline.New of a nil configuration)"
  },
  {
   "property": "C77",
   "status": "proved",
   "theorems": [
    "C77_same",
    "C77_integers_refuted",
    "C77_null_refuted",
    "C77_repeated_refuted",
    "C77_capitals_refuted",
    "C77_number_as_text_refuted"
   ],
   "note": "findings: integers differ in type, capitals, repeated names, null and numbers as texts are read differently"
  },
  {
   "property": "C78",
   "status": "proved",
   "theorems": [
    "C78_flags",
    "C78_one_meaning"
   ],
   "note": "exact for every list of arguments; package flag is a dependency outside /repo"
  },
  {
   "property": "C79",
   "status": "proved",
   "theorems": [
    "C79_does_what_is_written",
    "C79_stops",
    "C79_usage",
    "C79_other_files_kept",
    "C79_profiles_written",
    "C79_null_definition_refuted",
    "C79_profiles_lost_refuted",
    "C79_definition_kept_refuted",
    "C79_failed_lines_refuted"
   ],
   "note": "findings: a null definition crashes; profiles are lost (empty files) when the input ends with an error; a profile named like the definition file empties it; status 0 though every line failed"
  },
  {
   "property": "C80",
   "status": "proved",
   "theorems": [
    "C80_reads",
    "C80_one_reading",
    "C80_own_fields_count",
    "C80_only_merged",
    "C80_any_order",
    "C80_misspelled_refused"
   ],
   "note": "exact for every document tree; merge keys inside defaults and common_fields are taken for ordinary members"
  },
  {
   "property": "C81",
   "status": "proved",
   "theorems": [
    "C81_files_written",
    "C81_files_kept",
    "C81_readme_written",
    "C81_nothing_said",
    "C81_options",
    "C81_null_refuted"
   ],
   "note": "finding: a null document is no error and crashes both generators; two processors in one list entry may lose a README section (C70)"
  },
  {
   "property": "C82",
   "status": "proved",
   "theorems": [
    "C82_shows_the_data",
    "C82_any_value",
    "C82_error_keeps",
    "C82_crashes",
    "C82_names_kept",
    "C82_dotted_names_refuted",
    "C82_set_writes_it",
    "C82_scalars"
   ],
   "note": "finding: dots in names inside a configured value come out with a backslash"
  },
  {
   "property": "C83",
   "status": "proved",
   "theorems": [
    "C83_reads_event",
    "C83_reads_bytes",
    "C83_agrees_with_Get",
    "C83_absent",
    "C83_one_kind",
    "C83_null_refuted"
   ],
   "note": "finding: GetNull tells nothing; read with the getters a message loses nothing of what C34 says ToLogEvent changes"
  },
  {
   "property": "C84",
   "status": "proved",
   "theorems": [
    "C84_value",
    "C84_one_meaning",
    "C84_event",
    "C84_decoded",
    "C84_round_trip",
    "C84_all_fields_refuted"
   ],
   "note": "finding: fields whose names differ in backslashes only are merged, and those named by backslashes only are lost"
  },
  {
   "property": "C85",
   "status": "proved",
   "theorems": [
    "C85_result",
    "C85_crashes",
    "C85_clean",
    "C85_order"
   ],
   "note": "nothing calls cleanValue in this commit"
  }
 ]
}