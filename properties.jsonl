{"id": "C01", "title": "Dotted keys parse as documented", "statement": "For every key string, Put/Get/TryPut/Delete address the field whose path is obtained by splitting the key at the dots that are not preceded by a backslash, dropping backslashes, and dropping empty segments; so every addressed path has only non-empty, backslash-free names.", "quantifier": "every byte string used as a key", "why_tests_cant": "a test checks a handful of literal keys; the escape state machine has to be right for every interleaving of dots, backslashes and other bytes", "anchors": ["pkg/event/event.go:keyToPath", "pkg/event/event.go:Event.Put", "pkg/event/event.go:Event.Get"]}
{"id": "C02", "title": "EscapeKey makes any field name addressable", "statement": "For every list of non-empty, backslash-free names, joining EscapeKey of each name with dots yields a key that addresses exactly that path. (A name that contains a backslash or is empty is not addressable this way: the escaped key addresses the name with backslashes removed, or nothing.)", "quantifier": "every list of names (byte strings), of every length", "why_tests_cant": "the names are arbitrary byte strings, the claim is a round-trip over all of them", "anchors": ["pkg/eventutil/event.go:EscapeKey", "pkg/event/event.go:keyToPath"]}
{"id": "C03", "title": "A successful Put is read back by Get", "statement": "After Put(key, v) returns a nil error with v non-nil, Get(key) returns v itself (same pointer) with its contents unchanged, whatever the event contained before, provided the event is tree shaped (no object reachable from itself).", "quantifier": "every event (any nesting, any content), every key, every value", "why_tests_cant": "events and keys are unbounded trees and strings", "anchors": ["pkg/event/event.go:Event.Put", "pkg/event/event.go:Event.put", "pkg/event/event.go:Event.get"]}
{"id": "C04", "title": "Put changes nothing but the addressed field", "statement": "When containers are not shared, after Put(key, v) every path that is neither a prefix nor an extension of key's path reads the same contents as before, and proper prefixes still read objects. When two fields share a container (the API stores pointers) a Put through one key is visible through the other.", "quantifier": "every event, key, value and every other path", "why_tests_cant": "frame property: ranges over all other paths of an unbounded tree", "anchors": ["pkg/event/event.go:Event.put"]}
{"id": "C05", "title": "Put fails exactly when documented, and a failed Put changes nothing", "statement": "Put returns ErrEmptyKey exactly when the key addresses the empty path; ErrTargetKeyNotObject exactly when a proper prefix of the path exists and is not an object; otherwise it succeeds. A failed Put, and a Put of a nil value, leaves every field of the event as it was, and returns no old value.", "quantifier": "every event, key and value", "why_tests_cant": "needs all shapes of partially existing paths", "anchors": ["pkg/event/event.go:Event.put"]}
{"id": "C06", "title": "TryPut never overwrites", "statement": "If the key's path is non-empty, v is non-nil and Get(key) is non-nil then TryPut(key, v) returns that existing value and an error wrapping ErrKeyExists and changes nothing; if Get(key) is nil, TryPut behaves exactly like Put. The empty path yields ErrEmptyKey, and a nil value with a non-empty path does nothing.", "quantifier": "every event, key and value", "why_tests_cant": "ranges over all events", "anchors": ["pkg/event/event.go:Event.TryPut", "pkg/event/event.go:Event.put"]}
{"id": "C07", "title": "Get is a pure lookup", "statement": "Get never changes the event or any value, returns the root object for the empty path on a non-empty event, returns nil exactly when the event has no value at the path, and otherwise the value stored there.", "quantifier": "every event and key", "why_tests_cant": "ranges over all events and all keys", "anchors": ["pkg/event/event.go:Event.Get", "pkg/event/event.go:Event.get"]}
{"id": "C08", "title": "Delete removes the given key", "statement": "Delete(key) returns the value Get(key) returned before, afterwards Get(key) is nil, and a Delete of a missing key changes nothing. For a nested key the documented contract says only the given key is removed: sibling fields must survive.", "quantifier": "every event and key", "why_tests_cant": "needs all nested shapes; the existing test only looks at the returned value", "anchors": ["pkg/event/event.go:Event.Delete", "pkg/event/event.go:Event.delete"]}
{"id": "C09", "title": "Event operations never panic", "statement": "On an event that holds no nil *Value and no nil map, no sequence of Put, TryPut, Get and Delete calls, with any keys and any such values, panics. (Events decoded from JSON containing null do hold nil *Value: Get or Put through such a field panics.)", "quantifier": "every event and every finite sequence of calls", "why_tests_cant": "a history property over unbounded operation sequences", "anchors": ["pkg/event/event.go:Event.put", "pkg/event/event.go:Event.get", "pkg/event/event.go:Event.UnmarshalJSON"]}
{"id": "C10", "title": "Any operation sequence behaves like a nested map", "statement": "For every sequence of Put/TryPut/Get/Delete calls on an event that shares no containers with the values put, the results and the final contents are those of a purely functional nested map under the same operations.", "quantifier": "every finite sequence of operations from any starting event", "why_tests_cant": "refinement over all histories", "anchors": ["pkg/event/event.go:Event.Put", "pkg/event/event.go:Event.TryPut", "pkg/event/event.go:Event.Get", "pkg/event/event.go:Event.Delete"]}
{"id": "C11", "title": "Values are stored by reference", "statement": "Put stores the caller's pointer: it never copies. Storing the same container under two keys makes later writes through one key visible through the other, and storing the root object inside itself makes the event cyclic; both are reachable through the public API.", "quantifier": "existential (witness histories), plus: for every Put the stored pointer is the caller's", "why_tests_cant": "tests never look at pointer identity after later writes", "anchors": ["pkg/event/event.go:Event.put", "pkg/processor/set/process.go:Set.Process"]}
{"id": "C12", "title": "Process returns the input event or an error, never both or neither", "statement": "Pipeline.Process(evt) returns either (evt, nil), with the very event it was given, or (nil, err) with a non-nil err, for every pipeline and whatever the processors do. The documented third outcome (dropped event: nil, nil) is never produced.", "quantifier": "every pipeline, every processor behaviour, every event", "why_tests_cant": "quantifies over arbitrary processors", "anchors": ["pkg/pipeline/pipeline.go:Pipeline.Process", "pkg/pipeline/event.go:pipelineEvent.Drop"]}
{"id": "C13", "title": "Processors run in order, stop at the first unrecovered failure", "statement": "Processing an event runs the configured processors in list order; each one sees the event as the previous one left it; the first processor whose failure is neither ignored nor recovered stops the list and later processors do not run.", "quantifier": "every pipeline (any length and nesting) and every processor behaviour", "why_tests_cant": "all interleavings of failures over unbounded lists and nesting", "anchors": ["pkg/pipeline/pipeline.go:Pipeline.process", "pkg/pipeline/processor.go:pipelineProcessor.Process"]}
{"id": "C14", "title": "ignore_failure hides every failure of its processor", "statement": "A processor with ignore_failure set never makes the pipeline fail, whatever its own processor or its on_failure handlers return; its on_failure handlers still run first.", "quantifier": "every processor, handler list, event", "why_tests_cant": "all failure combinations", "anchors": ["pkg/pipeline/processor.go:pipelineProcessor.Process"]}
{"id": "C15", "title": "ignore_missing swallows exactly missing-key errors", "statement": "With ignore_missing set, an error that is (or wraps) a missing-key error makes the processor succeed without running its on_failure handlers; any other error is treated as without the option.", "quantifier": "every processor, error, event", "why_tests_cant": "all error values, including wrapped ones", "anchors": ["pkg/pipeline/processor.go:pipelineProcessor.Process", "pkg/processor/error.go:ErrorKeyMissing.Is"]}
{"id": "C16", "title": "on_failure recovers iff all its handlers succeed", "statement": "When a processor fails (and the error is not ignored), its on_failure handlers run in order until one fails. If all succeed the processor counts as successful; if one fails the processor fails with that handler's error (or succeeds under ignore_failure). Without handlers the processor fails with its own error.", "quantifier": "every processor tree of any depth, every behaviour", "why_tests_cant": "nesting is unbounded", "anchors": ["pkg/pipeline/processor.go:pipelineProcessor.Process"]}
{"id": "C17", "title": "The pipeline on_failure handler runs exactly on pipeline failure", "statement": "The global on_failure processors run iff some top-level processor failed unrecovered; if all of them succeed Process returns the event with a nil error; the first failing one determines the returned error.", "quantifier": "every pipeline and behaviour", "why_tests_cant": "all combinations", "anchors": ["pkg/pipeline/pipeline.go:Pipeline.process"]}
{"id": "C18", "title": "Metrics conservation", "statement": "For every component and every history of processed events (no panics), received = sent + errors + discarded; and received never decreases.", "quantifier": "every pipeline, every sequence of events, every component", "why_tests_cant": "history property", "anchors": ["pkg/pipeline/processor.go:pipelineProcessor.Process"]}
{"id": "C19", "title": "The errors metric counts only unrecovered, unignored errors", "statement": "As its comment says, component_errors_total excludes ignored and recovered errors: a processor whose on_failure handlers recovered the failure does not count an error.", "quantifier": "every processor and event", "why_tests_cant": "needs the precise accounting over all failure combinations", "anchors": ["pkg/pipeline/processor.go:pipelineProcessor"]}
{"id": "C20", "title": "Cancel stops further processing of the event", "statement": "processor.Event.Cancel is documented to cancel any further processing by the pipeline for this event: processors after one that called Cancel must not run.", "quantifier": "every pipeline, every position of the cancelling processor", "why_tests_cant": "all positions and nestings", "anchors": ["pkg/processor/api.go:Event", "pkg/pipeline/event.go:pipelineEvent.Cancel", "pkg/pipeline/pipeline.go:Pipeline.process"]}
{"id": "C21", "title": "Drop drops the event", "statement": "processor.Event.Drop is documented to drop the event: Process must then return (nil, nil) and the component's discarded counter must count it.", "quantifier": "every pipeline and processor", "why_tests_cant": "all positions and nestings", "anchors": ["pkg/processor/api.go:Event", "pkg/pipeline/event.go:pipelineEvent.Drop"]}
{"id": "C22", "title": "Each configured processor runs at most once per event", "statement": "Processing one event terminates and runs each configured processor (top-level, nested on_failure, global on_failure) at most once.", "quantifier": "every pipeline and behaviour", "why_tests_cant": "termination and multiplicity over unbounded trees", "anchors": ["pkg/pipeline/processor.go:pipelineProcessor.Process", "pkg/pipeline/pipeline.go:Pipeline.process"]}
{"id": "C23", "title": "Component IDs are unique within a pipeline", "statement": "All processors of a pipeline built by New (top-level, nested on_failure, global on_failure) have pairwise different component_id values, for any processor type names, so their metrics never collide.", "quantifier": "every valid configuration, of any size and depth, and any type names", "why_tests_cant": "string-concatenation injectivity over unbounded trees", "anchors": ["pkg/pipeline/processor.go:newPipelineProcessor", "pkg/pipeline/pipeline.go:New"]}
{"id": "C24", "title": "Metrics() exposes every processor", "statement": "Pipeline.Metrics() returns the four collectors of every processor of the pipeline, including on_failure handlers.", "quantifier": "every pipeline", "why_tests_cant": "ranges over all trees", "anchors": ["pkg/pipeline/pipeline.go:Pipeline.Metrics", "pkg/pipeline/pipeline.go:Pipeline.visitProcessors"]}
{"id": "C25", "title": "New accepts exactly the valid configurations", "statement": "pipeline.New succeeds iff the id is non-empty and every processor entry at every level (processors, nested on_failure, on_failure) names exactly one processor, that type is registered, its constructor accepts the options, and the processor it returns has a Config method with one struct result (from which the ignore options are read).", "quantifier": "every configuration tree", "why_tests_cant": "unbounded nesting", "anchors": ["pkg/pipeline/pipeline.go:New", "pkg/pipeline/processor.go:newPipelineProcessors", "pkg/pipeline/config.go:ProcessorConfig.getProcessor"]}
{"id": "C26", "title": "New preserves the configured structure", "statement": "The pipeline built by New has exactly the configured processors in the configured order and nesting; each component id spells the position (pipeline id, list, index, type) of the processor in the configuration.", "quantifier": "every valid configuration", "why_tests_cant": "unbounded nesting", "anchors": ["pkg/pipeline/processor.go:newPipelineProcessors", "pkg/pipeline/processor.go:newPipelineProcessor"]}
{"id": "C27", "title": "The if condition does not affect processing", "statement": "The if option is accepted but not evaluated: processing, metrics and results do not depend on it.", "quantifier": "every pipeline and every pair of conditions", "why_tests_cant": "relational property over all runs", "anchors": ["pkg/pipeline/processor.go:pipelineProcessor"]}
{"id": "C28", "title": "Events are processed independently", "statement": "The result of processing an event does not depend on which events the pipeline processed before.", "quantifier": "every pipeline, every history of earlier events", "why_tests_cant": "history property; needs aliasing between events and processor configuration", "anchors": ["pkg/processor/set/process.go:Set.Process", "pkg/processor/append/process.go:Append.Process", "pkg/pipeline/pipeline.go:Pipeline.Process"]}
{"id": "C29", "title": "set contract", "statement": "set writes the configured value (or the value found at copy_from) at target_field, replacing what was there, and changes no other field; a missing copy_from yields a missing-key error and changes nothing; with neither value nor copy_from it changes nothing.", "quantifier": "every configuration and event", "why_tests_cant": "all events", "anchors": ["pkg/processor/set/process.go:Set.Process"]}
{"id": "C30", "title": "lowercase/uppercase contract", "statement": "If the source field is a string, its case-mapped copy is stored at target_field (default: in place) and nothing else changes; a missing source yields a missing-key error; a non-string source yields an error; on any error the event is unchanged. (Documented: arrays of strings are converted too.)", "quantifier": "every configuration and event", "why_tests_cant": "all events", "anchors": ["pkg/processor/lowercase/process.go:Lowercase.Process", "pkg/processor/uppercase/process.go:Uppercase.Process"]}
{"id": "C31", "title": "append contract", "statement": "append adds the configured value at the end of an array field, creates a one-element array for a missing field, converts an existing scalar to an array first, and reports an error when it cannot store the value.", "quantifier": "every configuration and event", "why_tests_cant": "all events; needs the in-place mutation through a pointer", "anchors": ["pkg/processor/append/process.go:Append.Process"]}
{"id": "C32", "title": "remove deletes the configured fields", "statement": "remove deletes every configured field and fails when one is missing (unless ignore_missing).", "quantifier": "every configuration and event", "why_tests_cant": "all events", "anchors": ["pkg/processor/remove/remove.go:Remove.Process"]}
{"id": "C33", "title": "Registry: first registration wins, names are unique", "statement": "For every sequence of Register calls, a name resolves to the first valid constructor registered under it; duplicate or invalid registrations fail and change nothing; unknown names fail. Register crashes exactly if the name is free and it is given nil, a nil function or a constructor that crashes on the zero configuration. NewProcessor unpacks the configuration into that constructor's parameter type and returns what the constructor returns.", "quantifier": "every history of registrations", "why_tests_cant": "history property", "anchors": ["pkg/processor/registry/registry.go:Registry.Register", "pkg/processor/registry/registry.go:Registry.NewProcessor", "pkg/processor/registry/registry.go:validateConfig"]}
{"id": "C34", "title": "Protobuf conversion round-trip", "statement": "ToLogEvent(FromEvent(evt).GetLog()) reproduces evt.", "quantifier": "every event", "why_tests_cant": "all trees, all field names", "anchors": ["pkg/serialization/protobuf/protobuf.go:FromEvent", "pkg/serialization/protobuf/protobuf.go:ToLogEvent", "pkg/serialization/protobuf/protobuf.go:toEventValue"]}
{"id": "C35", "title": "Protobuf wire round-trip", "statement": "Unmarshal(Marshal(m)) reproduces m for every message (any nesting, any values), whatever order map entries are written in.", "quantifier": "every message, every map iteration order", "why_tests_cant": "all trees, all integers, all byte strings, all permutations", "anchors": ["pkg/serialization/protobuf/event.pb.go:Value.Unmarshal", "pkg/serialization/protobuf/event.pb.go:Value.MarshalToSizedBuffer", "pkg/serialization/protobuf/event.pb.go:ValueObject.Unmarshal", "pkg/serialization/protobuf/event.pb.go:ValueObject.MarshalToSizedBuffer"]}
{"id": "C36", "title": "Size is exact", "statement": "Size() equals the number of bytes Marshal writes for every message, so Marshal never writes outside its buffer (no index panic) and never leaves a gap.", "quantifier": "every message without nil array elements", "why_tests_cant": "all sizes; the backward writer would silently corrupt on an off-by-one", "anchors": ["pkg/serialization/protobuf/event.pb.go:Value.Size", "pkg/serialization/protobuf/event.pb.go:sovEvent", "pkg/serialization/protobuf/event.pb.go:encodeVarintEvent"]}
{"id": "C37", "title": "Unmarshal never panics", "statement": "For every byte string, Unmarshal terminates and returns a message or an error: no index out of range, no negative slice bound, whatever lengths and groups the input claims.", "quantifier": "every byte string (length below 2^63)", "why_tests_cant": "adversarial inputs, integer overflow", "anchors": ["pkg/serialization/protobuf/event.pb.go:MessageWrapper.Unmarshal", "pkg/serialization/protobuf/event.pb.go:skipEvent"]}
{"id": "C38", "title": "Varint codec", "statement": "Decoding an encoded varint followed by any bytes gives back the 64-bit integer (signed values through two's complement) and the rest; the encoding has exactly the announced length and at most ten bytes.", "quantifier": "every 64-bit integer", "why_tests_cant": "2^64 values", "anchors": ["pkg/serialization/protobuf/event.pb.go:encodeVarintEvent", "pkg/serialization/protobuf/event.pb.go:sovEvent"]}
{"id": "C39", "title": "Decoding never crashes the consumer", "statement": "ToLogEvent accepts every message that Unmarshal produced without panicking.", "quantifier": "every byte string accepted by Unmarshal", "why_tests_cant": "adversarial inputs", "anchors": ["pkg/serialization/protobuf/protobuf.go:toEventValue", "pkg/serialization/protobuf/event.pb.go:Value.Unmarshal"]}
{"id": "C40", "title": "mapinterface round-trip", "statement": "mapinterface.ToEvent(FromEvent(evt)) reproduces evt.", "quantifier": "every event", "why_tests_cant": "all trees and names", "anchors": ["pkg/serialization/mapinterface/mapinterface.go:ToEvent", "pkg/serialization/mapinterface/mapinterface.go:FromEvent"]}
{"id": "C41", "title": "ReflectValue converts every supported Go value and rejects the rest", "statement": "ReflectValue returns an UnsupportedTypeError iff the value contains a channel, complex or function value; otherwise the result has the same structure, with pointers and interfaces replaced by what they hold and nil by null.", "quantifier": "every finite Go value", "why_tests_cant": "all nested values", "anchors": ["pkg/eventutil/reflect.go:interfaceToValue", "pkg/eventutil/reflect.go:reflectToValue"]}
{"id": "C42", "title": "JSON round-trip of events", "statement": "Decoding the JSON encoding of an event gives back the same event.", "quantifier": "every event", "why_tests_cant": "all trees, all value types", "anchors": ["pkg/event/event.go:Event.MarshalJSON", "pkg/event/event.go:Event.UnmarshalJSON", "pkg/event/value.go:Value.UnmarshalJSON", "pkg/event/value.go:Value.MarshalJSON"]}
{"id": "C43", "title": "Timestamps are encoded losslessly", "statement": "The JSON text of a timestamp determines its nanosecond value: two different timestamps never have the same text.", "quantifier": "every int64 nanosecond count", "why_tests_cant": "2^64 values; calendar arithmetic", "anchors": ["pkg/event/time.go:Time.MarshalJSON", "pkg/event/time.go:Time.GoTime"]}
{"id": "C44", "title": "Processor options survive a JSON round-trip", "statement": "Unmarshalling the JSON of a processor option block gives back the id, if, on_failure and configuration options.", "quantifier": "every option block, any nesting", "why_tests_cant": "unbounded nesting and option names", "anchors": ["pkg/pipeline/config.go:ProcessorOptionConfig.UnmarshalJSON", "pkg/pipeline/config.go:ProcessorOptionConfig.MarshalJSON"]}
{"id": "C45", "title": "The command writes one JSON line per successfully processed non-blank line, in order", "statement": "sawmill numbers all input lines from 1, skips blank ones, gives each other line's event the line number and the trimmed text, and outputs the processed events in input order, omitting failed lines and nothing else. If a write fails, after any number of bytes, what was written is a prefix of that output ending within one line, and that line and all later ones are reported.", "quantifier": "every input", "why_tests_cant": "unbounded input", "anchors": ["cmd/sawmill/sawmill.go:processInput"]}
{"id": "C46", "title": "eventutil.Append contract", "statement": "Append(evt, key, item) makes the field an array that ends with item (or with item's elements if item is an array) preceded by the previous elements, or the previous non-array value; other fields are unchanged; on error nothing changes.", "quantifier": "every event, key and item", "why_tests_cant": "all events", "anchors": ["pkg/eventutil/event.go:Append"]}
{"id": "C47", "title": "Concurrent processing keeps the counters consistent", "statement": "For any number of goroutines processing events through one pipeline under any schedule, at every moment received = sent + errors + discarded + (events currently inside the component), for every component.", "quantifier": "every schedule, every number of goroutines", "why_tests_cant": "schedules", "anchors": ["pkg/pipeline/processor.go:pipelineProcessor.Process"]}
{"id": "C48", "title": "Value type names are distinct", "statement": "ValueType.String gives the nine defined types distinct names and unknown_type for every other value.", "quantifier": "every uint8", "why_tests_cant": "(finite, stated for completeness; used to state type-directed behaviour)", "anchors": ["pkg/event/value.go:ValueType.String"]}
{"id": "C49", "title": "Component ids of different pipelines never collide", "statement": "Two pipelines with different ids never have a component id in common, so their metrics can be registered side by side.", "quantifier": "every pair of valid configurations with different pipeline ids", "why_tests_cant": "ranges over all strings and trees; ids are built by string concatenation", "anchors": ["pkg/pipeline/processor.go:newPipelineProcessors", "pkg/pipeline/pipeline.go:New"]}
{"id": "C50", "title": "mapinterface.ToEvent keeps every entry of the map", "statement": "ToEvent of a map either fails with an UnsupportedTypeError because a value in it cannot be represented, or returns an event whose top-level fields are exactly the map's entries, dots in names notwithstanding, each showing the converted value, whatever order Go visits the map in.", "quantifier": "every map with distinct non-empty backslash-free keys and finite values, every map order", "why_tests_cant": "all nested values, key names and map iteration orders", "anchors": ["pkg/serialization/mapinterface/mapinterface.go:ToEvent", "pkg/eventutil/reflect.go:interfaceToValue"]}
{"id": "C51", "title": "A processor's event handle is the event itself", "statement": "Put, TryPut, Get and Delete called by a processor on the handle it is given answer exactly what the same calls made directly on the event would answer, and leave the event in the same state; no other event is touched.", "quantifier": "every adaptive sequence of calls by every processor, on every event", "why_tests_cant": "ranges over all call sequences where each call may depend on earlier answers", "anchors": ["pkg/pipeline/event.go:pipelineEvent", "pkg/processor/api.go:Event"]}
{"id": "C52", "title": "Decoding follows the protobuf encoding rules", "statement": "Unmarshal accepts exactly the byte strings that are an event message by the protobuf encoding rules (fields in any order, repeated, unknown, varints longer than needed, groups) and returns the message they mean; all others are refused with an error. What Marshal writes means, by the same rules, the message it was given.", "quantifier": "every byte string shorter than 2^63, every well-formed message", "why_tests_cant": "all byte strings: every field order, repetition, nesting, over-long varint and unknown field", "anchors": ["pkg/serialization/protobuf/event.pb.go:Unmarshal", "pkg/serialization/protobuf/event.pb.go:skipEvent", "pkg/serialization/protobuf/event.proto"]}
{"id": "C53", "title": "JSON decoding accepts exactly the JSON texts of events", "statement": "UnmarshalJSON of an event succeeds exactly on the RFC 8259 texts that are null or an object, nested at most 10000 deep, whose numbers round to a finite double; the fields it then has are those of the text: the nearest double for each number, the last value for a repeated name, nil for null. On any other bytes it returns an error and leaves the event as it was. MarshalJSON writes an RFC 8259 text that shows exactly the event's fields.", "quantifier": "every byte string, every event", "why_tests_cant": "all byte strings: every placement of white space, escape, surrogate pair, invalid UTF-8 and number form, and all depths", "anchors": ["pkg/event/event.go:UnmarshalJSON", "pkg/event/event.go:MarshalJSON", "pkg/event/value.go:UnmarshalJSON", "pkg/event/value.go:MarshalJSON"]}
{"id": "C54", "title": "Goroutines processing their own events do not influence each other", "statement": "Any number of goroutines may make events and pass them to Process of shared pipelines at the same time. Whatever the schedule, each call returns the event or error it returns when that event is processed alone, the event then holds and keeps what it holds when processed alone, no call panics because of the others, at the end every counter has grown by the sum of what each event alone contributes, nothing that existed before is modified, and no two events ever share a map or value except configured set values.", "quantifier": "every schedule, every number of goroutines and events, all event contents, every set of pipelines of built-in processors whose set values are neither arrays nor objects", "why_tests_cant": "The race detector and unit tests see a handful of schedules and events; interference depends on the interleaving, on which values are shared through the configuration and on later writes by other goroutines.", "anchors": ["pkg/pipeline/pipeline.go:Process", "pkg/pipeline/processor.go:Process", "pkg/processor/set/process.go", "pkg/processor/append/process.go", "pkg/event/event.go:put"]}
{"id": "C55", "title": "A pipeline of built-in processors is a function of its configuration and the event's fields", "statement": "Process on an event, with a pipeline made of lowercase, uppercase, append, set, remove and community_id processors with any options, failure handlers and nesting, leaves the event with exactly the fields, returns exactly the error, and increments exactly the counters, in order, that composing the processors' effects gives, where set with copy_from makes two fields hold the same array or object, so that changing it through one shows through the other (community_id, a stub, has no effect); other events keep their fields; it never panics on an event without null values, whatever the keys.", "quantifier": "every such pipeline configuration, every event content, every key and every heap", "why_tests_cant": "all configurations and all event contents; the composition of partial effects, failures and handlers over shared mutable state", "anchors": ["pkg/pipeline/pipeline.go:Process", "pkg/pipeline/processor.go:Process", "pkg/processor/lowercase/process.go", "pkg/processor/uppercase/process.go", "pkg/processor/append/process.go", "pkg/processor/set/process.go", "pkg/processor/remove/remove.go", "pkg/processor/community_id/community_id.go"]}
{"id": "C56", "title": "The command's output is the JSON of what its pipeline makes of each line", "statement": "For every input, the sawmill command writes, for each line that is not blank and in order, one line with a JSON text showing exactly the fields the configured pipeline gives for an event holding the line number under @metadata.line_number and the trimmed line under event.original; if the pipeline fails, or the result holds a non-finite float or is nested over 10000 deep, that line's number is logged instead; the counters grow by what each line contributes; it crashes exactly if the pipeline makes the event of some line contain itself, never without copy_from.", "quantifier": "every input byte string, every pipeline of built-in processors", "why_tests_cant": "every byte sequence and every configuration; requires composing scanning, event mutation, pipeline semantics and JSON encoding", "anchors": ["cmd/sawmill/sawmill.go:processInput", "pkg/pipeline/pipeline.go:Process", "pkg/event/event.go:MarshalJSON"]}
{"id": "C57", "title": "What a pipeline does can be read off its definition", "statement": "After importing any of the built-in processor packages, in any order, pipeline.New accepts a definition exactly if it has an id, every entry names one imported processor type and its options unpack; the pipeline made then treats events exactly as composing the configured processors, with their ids by position, handlers and ignore options, on the fields says.  Importing never fails; registering a type twice panics.", "quantifier": "every set of imported packages, every definition of any size and nesting, every options map, every event content", "why_tests_cant": "all definitions, nested failure handlers of any depth, all events", "anchors": ["pkg/pipeline/pipeline.go:New", "pkg/pipeline/processor.go:newPipelineProcessor", "pkg/pipeline/config.go:getProcessor", "pkg/processor/registry/registry.go:MustRegister", "pkg/processor/registry/registry.go:NewProcessor", "pkg/processor/lowercase/lowercase.go:New", "pkg/processor/set/set.go:New"]}
{"id": "C58", "title": "The C library replies to each event what the loaded pipeline makes of it", "statement": "Load of a definition that is valid returns 0, and from then on every sequence of Process calls returns, for each text, the JSON of the fields the defined pipeline gives for that event, as a C string without embedded NUL; texts that are no event, pipelines that fail and results that cannot be written give a message; no reply depends on earlier calls; Load of a text that is no definition returns 1 and keeps the pipeline loaded before.", "quantifier": "every definition text, every sequence of event texts, any bytes", "why_tests_cant": "all byte strings, all definitions, all call sequences", "anchors": ["examples/c/cshared/main.go:Load", "examples/c/cshared/main.go:Process", "pkg/pipeline/config.go:UnmarshalJSON", "pkg/pipeline/pipeline.go:New", "pkg/pipeline/pipeline.go:Process", "pkg/event/event.go:UnmarshalJSON", "pkg/event/event.go:MarshalJSON"]}
{"id": "C59", "title": "pipeline_execute in the browser returns the processed event", "statement": "For a valid definition and event, pipeline_execute returns the object that the JSON of the fields the defined pipeline gives stands for; for a text that is no definition, a definition that is not valid, a text that is no event, or a pipeline that fails it returns the message of that step.", "quantifier": "every definition text and every event text", "why_tests_cant": "all byte strings and all definitions", "anchors": ["examples/wasm/wasm.go:process", "examples/wasm/wasm.go:toObject"]}
{"id": "C60", "title": "The metrics endpoint shows exactly the counters of the registered pipelines", "statement": "After any sequence of building pipelines, metrics.Register(p.Metrics()...), metrics.Unregister and Process calls, GET /metrics shows exactly the counters of the pipelines that are registered and not unregistered since, each with the number of increments that pipeline made, each counter once.", "quantifier": "every sequence of New, Register, Unregister and Process calls over any number of pipelines with any definitions", "why_tests_cant": "all histories; whether two counters are the same one depends on strings built by concatenation, and registration errors are dropped silently", "anchors": ["pkg/metrics/metrics.go:Register", "pkg/metrics/metrics.go:Unregister", "pkg/metrics/metrics.go:Listen", "pkg/pipeline/pipeline.go:Metrics", "pkg/pipeline/processor.go:newPipelineProcessor"]}
{"id": "C61", "title": "A JSON definition is read as what it says", "statement": "json.Unmarshal into a pipeline Config accepts exactly the texts that are JSON, nested at most 10000 deep, and have the shape of a definition (id and description strings, processors and on_failure lists of objects from processor names to option blocks; in a block id, if and on_failure likewise, every other member an option), and the result is exactly what the text says: names matched without regard to case, the last of repeated keys counting, repeated lists merged place by place, null as absent.", "quantifier": "every byte string", "why_tests_cant": "all texts: nesting, repeated and differently spelled keys, merging of repeated lists", "anchors": ["pkg/pipeline/config.go:ProcessorOptionConfig.UnmarshalJSON", "pkg/pipeline/config.go:Config", "pkg/pipeline/config.go:ProcessorConfig"]}
{"id": "C62", "title": "Arrays keep their elements whatever the capacities of their slices", "statement": "Appending to an array of one event (append processor, eventutil.Append, or a processor's own append) never changes any other array, and the results do not depend on the spare capacity of any slice nor on how Go's append grows slices, if two values share a slice only as s[i:j:j], that is without spare capacity, which holds of all that the built-in processors and Append do. It is false for event.Array(other.Array...) with spare capacity.", "quantifier": "every program over the processor interface, every pipeline of built-in processors, every event, every layout of arrays in memory, every growth policy", "why_tests_cant": "depends on capacities and on the growth policy of the Go release, which tests see one of", "anchors": ["pkg/event/value.go:Value", "pkg/event/value.go:Array", "pkg/eventutil/event.go:Append", "pkg/processor/append/process.go:Process"]}
{"id": "C63", "title": "A panicking processor", "statement": "Process panics exactly when a processor it runs panics; ignore_failure, ignore_missing and on_failure do not recover it. If the caller recovers, the counters of every component still balance except for the processors active at the panic, which have counted one event in and nothing out; over any history the gap of a component is at most the number of panics.", "quantifier": "every pipeline, event, processor program, and history of calls with recovered panics", "why_tests_cant": "all programs, all nesting of handlers, all histories", "anchors": ["pkg/pipeline/processor.go:pipelineProcessor.Process", "pkg/pipeline/pipeline.go:Pipeline.Process"]}
{"id": "C64", "title": "Floats are written shortest", "statement": "json.Marshal writes a finite Float value as the decimal with the fewest digits that reads back as the same double, of these the closest one, without exponent if its first digit stands for 10^-6 up to 10^20 and as d.ddde+x or d.ddde-x otherwise; the sign of -0 is kept. NaN and infinities are refused. Different doubles are written differently, and any reader that rounds to nearest gets the same bits back.", "quantifier": "every 64-bit pattern", "why_tests_cant": "2^64 patterns, each against every decimal of at most 17 digits", "anchors": ["pkg/event/value.go:Value.MarshalJSON", "pkg/event/value.go:Value.value"]}
{"id": "C65", "title": "Decoding JSON into a Value that already holds something", "statement": "json.Unmarshal into a Value without array and object gives exactly what the text says, in memory of its own, or an error that affects no other value. In general it changes at most the value, the values its array slots lead to (also those behind the lengths) and their maps. An object text is merged into the Value's Object, whose entries accumulate and survive scalar texts in between; an array text is decoded element by element into the values already there, also those behind the length; an error leaves what was decoded until then. The value shows what the text says if and only if every name that an Object already had where the text has an object occurs in the text there. As long as no object is involved a Value can be reused, also after failed attempts. That the value always holds what was decoded last, that no other value is affected, and that a failed decode leaves it unchanged are all false.", "quantifier": "every store, every value in it that leads to no value twice, and every sequence of texts", "why_tests_cant": "the result depends on everything decoded into the value before, including what is no longer visible", "anchors": ["pkg/event/value.go:Value.UnmarshalJSON"]}
{"id": "C66", "title": "Events are independent of each other under every history of calls", "statement": "In any program that works on any number of events with Put, TryPut, Get, Delete, eventutil.Append and the Process of pipelines of built-in processors, the calls on different events in any order, an event gets the same answers and has the same fields as in the program that makes only the calls on it; the order of calls on different events makes no difference, and the program panics only if the calls on one of the events by themselves do. This holds although every null that ReflectValue and ToLogEvent put into events is one variable, event.NullValue: none of these calls ever changes it. Decoding JSON into that value, however, changes every null of every event.", "quantifier": "every number of events, every sequence of calls on them with every key and value, every set of pipelines", "why_tests_cant": "it speaks of all interleavings of all sequences of calls; the null shared by all events makes independence a property of every operation of the library", "anchors": ["pkg/event/event.go:Event.Put", "pkg/event/event.go:Event.TryPut", "pkg/event/event.go:Event.Get", "pkg/event/event.go:Event.Delete", "pkg/event/value.go:NullValue", "pkg/eventutil/event.go:Append", "pkg/eventutil/reflect.go:interfaceToValue", "pkg/pipeline/pipeline.go:Pipeline.Process"]}
{"id": "C67", "title": "Descriptions in processors.yml become comments and nothing else", "statement": "The code generator turns a description into a // comment: the wrapped lines, without a blank first and last one, each without trailing white space, every further line behind the indentation and //, so that two processors.yml files that differ only in descriptions give Go files with the same code lines. This holds for comments of at most 2048 bytes. For longer ones it is false: trimTrailingWhitespace keeps slices of the scanner's buffer, which is overwritten when the last line is moved to its front; the text of a description can then become a line of Go code.", "quantifier": "every description, indentation, wrapping function, processor definition", "why_tests_cant": "all texts; the failure depends on byte offsets of lines in a buffer of 4096 bytes", "anchors": ["internal/proctemplate/funcs.go:descriptionToComment", "internal/proctemplate/funcs.go:trimTrailingWhitespace", "pkg/processor/generate/assets/processor.go.gotmpl"]}
{"id": "C68", "title": "Go names and types of generated configuration structs", "statement": "The Go name of a field or processor is its name split at '.', '_' and '@', each word capitalized, or in capitals if it is a known abbreviation; apart from case it has the letters of the name, and it is an exported identifier if the name has only letters, digits and separators and starts with a letter. The generated imports are, without repetition and in any order, the paths before the last dot of the option types, and a type dir/base.Name is written base.Name. For descriptions of at most 2048 bytes, the Config struct has one field per option, in order, with its key in the configuration and a validation exactly if it is required, and InitDefaults sets exactly the options with a default. Different names can get the same Go name, and for list and map types of such a type the import path and the type are wrong.", "quantifier": "every ASCII name, every list of options, every map order", "why_tests_cant": "all names and types, random map order", "anchors": ["internal/proctemplate/funcs.go:goTypeName", "internal/proctemplate/funcs.go:abbreviations", "internal/proctemplate/funcs.go:configTypeImports", "internal/proctemplate/funcs.go:trimImportPrefix"]}
{"id": "C69", "title": "Regeneration keeps hand-written work", "statement": "A run of the code generator touches only the generated files of the processors it is given. A generated file from which Process has been removed never gets it back, in any history of completed or interrupted runs with any processors.yml; a file that is missing, does not parse or has Process gets it. A second run with the same input changes nothing, in whatever order maps are visited.", "quantifier": "every history of runs and changes to other files, every formatter and parser that agree with the template", "why_tests_cant": "histories of unbounded length, random map order", "anchors": ["pkg/processor/generate/generate.go:main", "pkg/processor/generate/generate.go:hasProcessFunc"]}
{"id": "C70", "title": "The generated documentation lists every processor and option", "statement": "The README has a section per processor in the order of their names, and each option is one table row of six cells showing name, required, optional, type, default and description, also if the description has several lines. It holds if every entry of the processors list has one key and the default is not a false value: a default of false, 0 or the empty string, which the generated code sets, is not shown, and of an entry with two keys only one, chosen at random, is documented.", "quantifier": "every processors.yml, every map order", "why_tests_cant": "all definitions, random map order", "anchors": ["docs/generate/generate.go:main", "docs/generate/assets/processor.md.gotmpl", "docs/generate/assets/README.md.gotmpl", "internal/proctemplate/funcs.go:boolToX"]}
{"id": "C71", "title": "An event sent elsewhere and back cannot be told from the original", "statement": "An event that has at least one field, whose names are not empty and have no backslash (below the top level also no dot), and which holds no nil value, slice or map, can be converted to a protobuf message, encoded, decoded and converted back, or converted to a map and back, in another process: every pipeline of built-in processors, copies included, makes the same of the two (crash, error, fields, counters), and their JSON texts are equal. It is false for other events: a dot in a nested name comes back escaped, so the JSON text differs, and a JSON text with a null is read and sent without error but crashes the receiver.", "quantifier": "every event, order of maps, receiving memory, pipeline of built-in processors", "why_tests_cant": "all events and all pipelines, random map order", "anchors": ["pkg/serialization/protobuf/protobuf.go:FromEvent", "pkg/serialization/protobuf/protobuf.go:ToLogEvent", "pkg/serialization/mapinterface/mapinterface.go:ToEvent", "pkg/event/event.go:Event.MarshalJSON", "pkg/pipeline/pipeline.go:Pipeline.Process"]}
{"id": "C72", "title": "A processor's String shows its configuration", "statement": "String() of a built-in processor is its registered name, an equals sign, one line of JSON and a newline; the JSON is an object with every option under its Go field name, the strings with invalid UTF-8 replaced. So two processors that print alike have the same kind and the same options, if strings are valid UTF-8 and a set processor's value is neither an array nor an object. It is false otherwise: an integer and a float inside an array print alike, and with a NaN or infinite value only the name is printed, the error is lost.", "quantifier": "every built-in processor and every configuration", "why_tests_cant": "all strings, numbers and nested values", "anchors": ["pkg/processor/api.go:ConfigString", "pkg/processor/set/set.go:Set.String", "pkg/processor/append/append.go:Append.String", "pkg/processor/remove/remove.go:Remove.String", "pkg/processor/lowercase/lowercase.go:Lowercase.String", "pkg/processor/uppercase/uppercase.go:Uppercase.String", "pkg/processor/community_id/community_id.go:CommunityID.String", "pkg/config/config.go:EventValue"]}
{"id": "C73", "title": "Printing a value shows its type and contents", "statement": "Printing a value with %v writes its type name, a colon and its contents: integers and times in decimal, floats as a decimal that rounds to the same double, arrays and maps with every item, maps in the order of keys, nil items as <nil>; it does not fail. Two printed values that look alike are equal, unless they are arrays, objects or NaNs. It is false of those: one string in an array may look like two, and a value that contains itself is never printed to the end.", "quantifier": "every value, nested arbitrarily", "why_tests_cant": "all values and nestings", "anchors": ["pkg/event/value.go:Value.Format", "pkg/event/value.go:Value.value", "pkg/event/value.go:ValueType.String", "pkg/event/time.go:Time.String"]}
{"id": "C74", "title": "Marshalling into a caller's buffer", "statement": "Marshal, MarshalTo, MarshalToSizedBuffer and XXX_Marshal of every message write its protobuf encoding of exactly Size() bytes at the documented end of the buffer (the start for MarshalTo, the end for MarshalToSizedBuffer), change no other byte, and panic exactly if there is no room or an array item is nil. It is false of XXX_Marshal with a capacity other than Size() (it returns other bytes), and of MarshalTo with a buffer shorter than its capacity (it writes past the length).", "quantifier": "every message of the five types, every buffer, length and capacity", "why_tests_cant": "all messages and buffer sizes", "anchors": ["pkg/serialization/protobuf/event.pb.go:MarshalTo", "pkg/serialization/protobuf/event.pb.go:MarshalToSizedBuffer", "pkg/serialization/protobuf/event.pb.go:XXX_Marshal", "pkg/serialization/protobuf/event.pb.go:Marshal"]}
{"id": "C75", "title": "A YAML definition is read as what it says", "statement": "The configuration the program sawmill reads from a pipeline definition file is exactly the one the first YAML document says, member by member and at every depth (text fields take the text of any scalar, members of a processor that name no field are its options), and everything else is refused: unreadable files, no document, repeated keys, values of the wrong kind. A document has one reading. A member whose name is none of the definition fields is ignored, whatever it holds.", "quantifier": "every YAML document, as its tree of nodes, of any size and depth", "why_tests_cant": "all documents and nestings", "anchors": ["cmd/sawmill/sawmill.go:loadPipeline", "pkg/pipeline/config.go:Config", "pkg/pipeline/config.go:ProcessorConfig", "pkg/pipeline/config.go:ProcessorOptionConfig"]}
{"id": "C76", "title": "From a definition file to the pipeline", "statement": "The program starts with a pipeline exactly if the file says a definition that pipeline.New accepts, and it is the pipeline pipeline.New makes of it; with the built-in processors it does what the file says. Starting never crashes, whatever the file, with one exception: an empty or null first document crashes the program.", "quantifier": "every definition file, every registry and configuration library", "why_tests_cant": "all files and registries", "anchors": ["cmd/sawmill/sawmill.go:main", "cmd/sawmill/sawmill.go:loadPipeline", "pkg/pipeline/pipeline.go:New"]}
{"id": "C77", "title": "A definition says the same in JSON and in YAML", "statement": "A definition in JSON that is accepted means the same when it is read as YAML: the same ids, texts, processors, handlers and options at every depth, if it is not null, repeats no name and spells the fields' names in small letters; integers stay integers in YAML and become doubles in JSON. It is false without these conditions.", "quantifier": "every JSON text and every tree of nodes YAML makes of it", "why_tests_cant": "all definitions", "anchors": ["pkg/pipeline/config.go:UnmarshalJSON", "pkg/pipeline/config.go:Config", "cmd/sawmill/sawmill.go:loadPipeline"]}
{"id": "C78", "title": "The command line of sawmill", "statement": "Each flag (-p, -metrics-addr, -cpuprofile, -memprofile, with one dash or two, with = or with the value as the next argument) has the value of its last setting before the first argument that is none, or its default; a request for help is recognised at that place; everything else is refused. The arguments have one meaning.", "quantifier": "every list of arguments", "why_tests_cant": "all argument lists", "anchors": ["cmd/sawmill/sawmill.go:init", "cmd/sawmill/sawmill.go:main"]}
{"id": "C79", "title": "The sawmill program from arguments to exit status", "statement": "Run with a definition file that says a sound pipeline and is not one of the profiles to be written, the program writes for each line of its input that is not blank the JSON of what that pipeline makes of the line, reports the numbers of the other lines, shows the processors' counters on the metrics endpoint, and exits with status 0 exactly if the input was read to its end, no line was too long and the profiles asked for were written. Without a sound definition it exits with status 1 before reading input, on wrong arguments with status 2. Files other than the profiles asked for are unchanged; on status 0 the profiles are complete. A null definition and a line whose event comes to contain itself crash it, a profile with the name of the definition file empties that file, profiles may be incomplete on status 1, and the status is 0 even if no line could be processed.", "quantifier": "every argument list, definition file, input and file system", "why_tests_cant": "all definitions, inputs and failures", "anchors": ["cmd/sawmill/sawmill.go:main", "cmd/sawmill/sawmill.go:loadPipeline", "cmd/sawmill/sawmill.go:processInput", "cmd/sawmill/sawmill.go:bufferedFileWriter", "pkg/metrics/metrics.go:Register"]}
{"id": "C80", "title": "processors.yml is read as what it says", "statement": "ReadProcessorsYAMLFile returns for a file exactly the processors, with their descriptions and options, that its first document says: a member of a mapping counts before those of the mappings merged into it with <<, of several merged ones the first counts, members may stand in any order, null options are left out. Every other file is an error: unknown fields (also of merged mappings), repeated keys, values of the wrong kind, unreadable files.", "quantifier": "every file and every document in it", "why_tests_cant": "all documents, all combinations of own and merged members", "anchors": ["internal/proctemplate/schema.go:ReadProcessorsYAMLFile", "internal/proctemplate/schema.go:Processors", "internal/proctemplate/schema.go:ConfigurationOption"]}
{"id": "C81", "title": "From processors.yml to the generated files and the README", "statement": "If processors.yml lists no processor twice, a completed run of the processor generator has written for each processor listed the formatted source for its description and its options sorted by name, with Process unless the file was there without it, and changed no other file; a completed run of the documentation generator has written a section with a row for every option of every processor, if each list entry has one processor. A file that says nothing readable makes both fail before writing; a null document crashes both.", "quantifier": "every processors.yml, file system, library and gofmt behaviour, map order", "why_tests_cant": "all definitions and all map iteration orders", "anchors": ["pkg/processor/generate/generate.go:main", "docs/generate/generate.go:main", "internal/proctemplate/schema.go:ReadProcessorsYAMLFile"]}
{"id": "C82", "title": "A configured value is the data configured", "statement": "Unpacking a Go value into config.EventValue (the value option of set) either makes it show exactly that data, in maps and arrays of its own, and changes nothing else, or returns an error because the value contains something unsupported, and changes nothing; it never crashes unless an Error or String method does. Data of maps, lists and scalars is always accepted; null, scalars and the structure are kept, names without dots too. A name with a dot inside the value gets a backslash that stays part of the name. A set processor writes what its value was unpacked from.", "quantifier": "every Go value, location and heap", "why_tests_cant": "all values of any nesting", "anchors": ["pkg/config/config.go:EventValue.Unpack", "pkg/eventutil/reflect.go:ReflectValue", "pkg/processor/set/set.go:Config"]}
{"id": "C83", "title": "A message read with its getters", "statement": "The getters of a protobuf message made from an event, chained from GetLog on through fields and array items, show just the event: at every position the getter of the value's kind gives the value there, the others give zero, the fields and lengths are those of the event, and fields that are not there read as nothing without a crash, below them, too (an index beyond the length of the items given crashes, and nothing else does). This also holds of the message decoded from its bytes, in any order of its maps, and agrees with Get. GetNull cannot tell a null from anything else.", "quantifier": "every event, position in it, order of the maps", "why_tests_cant": "all events of any nesting and all positions", "anchors": ["pkg/serialization/protobuf/event.pb.go:GetLog", "pkg/serialization/protobuf/event.pb.go:GetFields", "pkg/serialization/protobuf/event.pb.go:GetItems", "pkg/serialization/protobuf/event.pb.go:GetKind"]}
{"id": "C84", "title": "The event made of any message says what the message says", "statement": "For every protobuf message, from an event or not, ToLogEvent gives nil if the log has no object; an event if every field, at every depth, has a kind (and no typed nil); and crashes otherwise. The event has a field for each field of the message whose name is not just backslashes, named without backslashes, and no others, and its value is the one the getters give: same kind, same number, text, items in order and members, where names inside values get a backslash before each dot. If two field names differ in backslashes only, it has one of their values. Every message that Unmarshal returns is covered.", "quantifier": "every message, map order and heap", "why_tests_cant": "all messages of any nesting, including those no event gives", "anchors": ["pkg/serialization/protobuf/protobuf.go:ToLogEvent", "pkg/serialization/protobuf/protobuf.go:toEventValue"]}
{"id": "C85", "title": "Cleaning a decoded YAML value", "statement": "Cleaning a value as YAML decoders make them (proctemplate's cleanValue) gives the same value in which every map reached through slices and maps has string keys and no such map or slice is nil, whatever the order in which maps are visited; cleaning again changes nothing. It crashes exactly when one of those maps has a key that is not a string.", "quantifier": "every value without cycles, every order of its maps", "why_tests_cant": "all values of any nesting, all orders of maps", "anchors": ["internal/proctemplate/schema.go:cleanValue", "internal/proctemplate/schema.go:cleanSlice", "internal/proctemplate/schema.go:cleanMapInterface", "internal/proctemplate/schema.go:cleanMapString"]}
