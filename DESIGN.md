# Formal model of go-sawmill: design

Everything is in `rocq/theories` (logical name `Verif`).  The model is a set of
total, executable Gallina functions read off `/repo`; nothing is extracted or
run against the Go code, so the tie to the code is the citation on every
definition.

Files named `*Props.v` hold the property theorems (statement, short proof,
`Print Assumptions`) and the examples showing their hypotheses are met.  Other
files hold the model, the specification, or proofs, and say which.  Theorem
suffixes: `_partial` proves part of the property (the comment above says what is
missing), `_refuted` proves by a concrete witness that the property as
documented is false of the code.

## Layers

| files | models | style |
|-------|--------|-------|
| `GoBase` | Go error values, panics | `Outcome A := Ok a \| Panic` |
| `GoMap` | Go `map[string]T` | strictly sorted association list, canonical; iteration order is quantified over as a permutation where it matters |
| `KeyPath` | `keyToPath`, `pathString`, `EscapeKey` | loop over bytes |
| `EventHeap` | `Value`, `Event`, `Put/TryPut/Get/Delete` | heap of value cells and map cells; nil pointers and nil maps explicit |
| `Tree` | specification: nested maps | pure trees |
| `EventRefine`, `EventOps`, `EventSeq`, `EventShared`, `EventFacts`, `EventCopy`, `EventCopyOps`, `EventProps` | heap operations refine tree operations | `rep`: a heap region shows a tree, containers in disjoint cells |
| `Processors` | pipelineEvent handle, set, lowercase, uppercase, append, remove, community_id, eventutil.Append | programs (free monad) over the `processor.Event` interface |
| `ProcFacts`, `ProcRun`, `ProcProps`, `ProxyProps` | contracts of processors and of the handle | |
| `Pipeline`, `PipelineFacts`, `PipelineSim`, `PipelineRun`, `PipelineProps` | `pipelineProcessor.Process`, `Pipeline.Process`, counters | recursive functions over processor trees; processors are arbitrary programs |
| `Iso`, `IsoRun`, `Isolation`, `IsolationProps` | histories of many events through one pipeline | relation between two worlds up to renaming of cells |
| `Registry`, `RegistryProps` | `Register/NewProcessor/validateConfig` | state machine |
| `Itoa`, `PipelineNew`, `PipelineNewFacts`, `NewProps` | `pipeline.New`, ids, `Metrics()` | recursion over configuration trees |
| `Wire*` | generated `Size/Marshal/Unmarshal/skipEvent` | bytes; 64-bit wrap and index panics explicit |
| `WireMeaning`, `WireDecode`, `WireDecodeTop`, `WireMeaningProps` | specification: protobuf encoding rules as an inductive grammar; the decoder follows it | |
| `Protobuf*` | `FromEvent`, `ToLogEvent` | trees, messages |
| `Conc`, `ConcProps` | goroutines running `Process` | small-step interleaving |
| `ConcIso`, `Pool`, `PoolProps` | workers making events and running `Process` on them | each goroutine simulates a run alone; ownership of memory |
| `Reflect*`, `MapIface*` | `ReflectValue`, mapinterface | recursion over descriptions of Go values |
| `JsonTime`, `Utf8`, `Float64`, `Nearest` | RFC 3339 text, UTF-8 repair, decimal to double | bytes, integers; `Nearest` is the independent IEEE-754 specification |
| `Json`, `JsonText`, `JsonEvent`, `JsonProps` | (un)marshalling of events as JSON values, and encoding/json's writer and reader as bytes | |
| `JsonGrammar`, `JsonGrammarStr`, `JsonGrammarFacts`, `JsonMeaning`, `JsonGrammarProps` | specification: RFC 8259 as an inductive grammar; the reader accepts exactly it | |
| `ConfigJson*`, `ConfigProps`, `ConfigMeaning*` | JSON of pipeline definitions; `ConfigMeaning`: specification of what a text says | encoding/json modelled: keys without regard to case (and U+017F for s), repeated slice keys decoded into the existing slice |
| `Shortest`, `FloatText`, `FloatProps` | encoding/json's floatEncoder and strconv.FormatFloat: shortest digits, layout | the digits are searched for (1 to 17 digits, both neighbours) instead of by Ryu: same contract, proved to be the unique shortest |
| `Reuse`, `ReuseSpec`, `ReuseMem`, `ReuseProps` | Value.UnmarshalJSON and encoding/json's decoding into a `[]*Value` and `map[string]*Value` that already hold something | array growth by any capacity sequence; slots behind the length kept; each array has its own backing memory |
| `Session`, `SessionFacts`, `SessionProps` | programs of Put, TryPut, Get, Delete, Append and Process calls on any number of events, with the one shared `event.NullValue` | values to put are given as trees (Reflect, Protobuf say which); no value of one event is put into another |
| `Scanner` | bufio.Scanner with ScanLines, its buffer and the slices into it, for every sequence of read sizes | the reader fails only with io.EOF, in a call of its own |
| `Gen`, `GenFacts`, `GenNames`, `GenProps` | internal/proctemplate, the code generator with its template, the documentation generator with its templates | texts are bytes, letter case in ASCII; go-wordwrap, strconv.Quote, gofmt and go/parser are parameters; reading the YAML file is not modelled; a failing write leaves the old file |
| `TransportProps` | compositions of the models above | |
| `ConfigString`, `ConfigStringProps` | `processor.ConfigString` and the String methods, encoding/json of the Config structs without HTML escaping | |
| `ValueFormat`, `ValueFormatProps` | `Value.Format` and what it uses of package fmt (%v) | a nil pointer is printed by fmt as <nil> after the recovered panic |
| `WireInto`, `WireIntoProps` | `Marshal`, `MarshalTo`, `MarshalToSizedBuffer`, `XXX_Marshal(b, false)` of the five messages, with lengths and capacities | `XXX_Marshal(b, true)` goes through the library's reflection and is not modelled |
| `Yaml`, `YamlProps` | `loadPipeline` and the start of main; yaml.v3's decoding of a document's nodes into Config | parsing and the resolution of plain scalars are not modelled: a document is a tree of nodes with resolved scalars; no aliases, merge keys, binary scalars, explicit tags; decode.go of yaml.v3 v3.0.1 is a dependency outside /repo; a map with keys of any type is the list of assignments made to it |
| `YamlJson`, `YamlJsonProps` | the JSON and the YAML reading of the same definition | which nodes YAML makes of a JSON text is a definition (`as_yaml`) |
| `Main`, `MainProps` | `main` of cmd/sawmill with its flags (package flag of the Go library), the profile files, the counters on show, the exit status | a path names one file; the YAML text and the profiles' bytes are parameters; a CPU profile reaches its file when it is stopped |
| `Schema`, `Generators`, `SchemaProps` | `ReadProcessorsYAMLFile` with merge keys and KnownFields; the mains of the two generators from processors.yml to the files written | a document is a tree of nodes, aliases replaced; merge keys inside defaults and common_fields are taken for ordinary members; flags and the write of README.md are not modelled |
| `Unpack`, `UnpackProps` | `EventValue.Unpack` of pkg/config on the heap | the data are Go values as in `Reflect`; that ucfg calls it with the configured data is not modelled |
| `Getters`, `GettersProps` | the getters of event.pb.go | a kind that is a nil pointer to its wrapper is left out |
| `ToEvent`, `ToEventProps` | what ToLogEvent makes of any message | the model is in `Protobuf` |
| `Clean`, `CleanProps` | cleanValue and its helpers (internal/proctemplate/schema.go) | values containing themselves are excluded; nothing calls cleanValue in this commit |
| `GenTextProps` | more on the generator's texts: the width of comments, names of any words | as in `Gen` |
| `Slices`, `SlicesFacts`, `SlicesProps` | array values as slices (header, capacity, backing array), the processors and the pipeline over them | `append`'s growth is arbitrary; element assignment `v.Array[i] = x` is not modelled |
| `Unwind`, `UnwindProps` | `Process` with the world left by a panic | put proved to change nothing before it panics (`C63_put_panics_before_writing`); get and delete panic only while reading |
| `PipeSpec`, `PipeGen`, `PipeSem`, `PipeSemProps` | specification: effect of built-in pipelines on nested maps, and the proof that `Process` has it | |
| `ShareSpec`, `ShareRel`, `ShareSem`, `ShareFacts`, `ShareProps` | the same for events whose fields may share arrays and objects: a graph of numbered containers, no heap | refinement: the heap is the graph up to the choice of addresses |
| `ShareTextSpec`, `ShareText`, `ShareCmd`, `ShareCmdProps`, `ShareLib`, `ShareLibProps` | JSON of such events (written, refused, or endless), the command, the C library and the browser function on them | walk of the graph with fuel; fuel bounded by the number of containers if it ends at all |
| `Builtins`, `BuiltinsProps` | config structs and constructors of the built-in processors, their init functions; definitions read as options | recursion over definitions |
| `CLib`, `CLibProps` | examples/c/cshared and examples/wasm: texts in, texts out | |
| `Prom`, `PromProps` | pkg/metrics Register/Unregister/Listen over client_golang's registry | state machine over histories; identity by name and label values |
| `Cmd*` | cmd/sawmill `processInput`, `bufio.Scanner`, `strings.TrimSpace` | loop over bytes and lines |

## Per property

| property | what is modelled, how it is proved |
|----------|------------------------------------|
| C01, C02 | `keyToPath` against an independent tokenise/split specification; induction over strings |
| C03-C08, C10 | every event operation on the heap refines the tree operation; tree laws by induction on the path.  C08 (Delete) is refuted as documented, exact behaviour proved |
| C09 | panic is an explicit outcome; invariant over operation sequences |
| C11 | pointer identity of Put; cycles and sharing by witness |
| C12-C22, C27 | processors are arbitrary programs; induction over processor trees.  Counters are the number of their increments in a log.  C19-C21: documented contracts refuted, exact behaviour proved |
| C23-C26, C49 | recursion over configuration trees; string lemmas for ids.  C24, C49 refuted in part |
| C28 | heap model with the `set` configuration shared between events; simulation between a history and each event alone; refuted for array values |
| C29-C32, C46 | programs run on represented events.  C30, C31, C32 refuted in part |
| C33 | state machine, induction over histories |
| C34, C39, C40, C50 | trees, messages and Go maps; exact result for every event and map order |
| C35-C38 | byte level, every message and byte string |
| C41 | recursion over Go values |
| C42, C43, C44 | byte level through the model of encoding/json |
| C45 | `processInput` over bytes; scanner and trimming modelled concretely |
| C47 | small-step interleaving semantics, invariant over schedules |
| C48 | case analysis |
| C51 | adaptive call sequences through the handle against direct calls |
| C52 | decoder = inductive grammar of the protobuf encoding rules (two deviations stated) |
| C53 | JSON reader = RFC 8259 grammar; numbers = nearest doubles |
| C54 | every goroutine simulates its event processed alone; memory ownership as invariant over schedules |
| C55 | `Process` against a specification over nested maps, and one over graphs of containers for copies, by induction over processor trees |
| C56 | C45, C53 and C55 composed, line by line; json.Marshal of an event with sharing ends in one of three ways |
| C57 | registry, `New` and C55 composed; a definition related to what it describes by an inductive specification |
| C58, C59 | C44, C53, C55 and C57 composed; induction over calls |
| C60 | invariant over histories; the shown counters against a per-counter specification.  Refuted for pipelines with equal ids |
| C61 | equivalence of the decoder with an inductive specification of what a text says, by induction on JSON values |
| C62 | slices with backing arrays; forward simulation to the heap model, invariant: no value's spare capacity is within another's reach |
| C63 | runs that return the world at the panic; induction over the processor tree, path of active processors |
| C64 | the double and the decimals around it as integers; reading back is convex; 17 digits always suffice |
| C65 | values with fields and capacity; the heap decoder refines one on trees of everything a value holds (`over`), by induction on the text with frames; concrete counterexamples |
| C66 | programs refine a specification that has every event as a graph by itself (induction over the calls, frames for the other events); independence, order and panics follow; the shared null by an invariant; decoding into it by induction over the value built |
| C67 | the scanner's buffer and the slices kept from it; exact result for texts under 4096 bytes by induction over the lines; at most 2048 bytes: nothing is overwritten, every line stays behind `//`, code lines of the rendered file by splitting at the comments; the refutation is a computed instance of the exact result |
| C68 | induction over the name, the 256 bytes by enumeration; imports by induction over the options; the lines of code of the file by splitting it at newlines (`source_lines`) |
| C69 | invariant of a run (whether Process is to be written does not change), induction over histories; sorted lists of distinct names are unique |
| C70 | rows as cells between bars, uniqueness of that reading; sections by splitting the list of entries |
| C71 | what is made of an event is a function of the fields it shows (C42, C55 over graphs), composed with the round trips of C34, C35 and C40 |
| C72 | the text written by the encoder is read back by the JSON reader of C53, member by member (`reads`, closed under lists and structs); injectivity from that, C43 and C64 |
| C73 | `Format` on the heap against a text for trees, by induction on the representation; numbers through the grammar of C53 and the shortest decimals of C64 |
| C74 | every write into a buffer either has room or indexes below 0 (`sputs`, next to C36's `puts`), by induction on messages; capacities are the memory behind a slice |
| C75 | the decoder as recursion over the tree of nodes against an inductive reading of it; induction on the tree; each field of a struct separately, using that keys are distinct |
| C76 | C75 composed with C25 and C57 |
| C77 | simultaneous induction on the JSON value and its tree of nodes |
| C78 | strong induction on the arguments |
| C79 | C56, C57, C60, C75 and C78 composed along main |
| C80 | decoder = run over the list of members, own ones first, then the merged ones; `file_iff` against the relation `file_says`; the consequences from the relation |
| C81 | C69, C70 and C80 composed along the two mains |
| C82 | conversion of data by induction on it; allocation neither reads nor writes old cells, so the copied root shows the tree laid out; with C41 for any Go value, with C29 for set |
| C83 | the getters commute with `from_tree` and with reordering of maps: induction on the position looked at; composed with C34/C35 for the bytes |
| C84 | an inductive relation on getters equals `toEventValue` (induction on the value); the loop of ToLogEvent is a fold of `put_field`, whose lookups are those of the last field of a name |
| C85 | the loops in closed form; induction on the value; order independence by permutations of the entries |

No property was found that a model cannot express.  The status of each is in
`MANIFEST.json`.

## Trusted base

* Coq 8.16.1's kernel.
* Axioms: none.  `Print Assumptions` follows every property theorem and prints
  "Closed under the global context" for each.  (The seven constants a whole-library
  scan lists, `Coq.ssr.ssrunder.Under_rel.*`, are fields of a module type inside
  Coq's ssreflect, loaded with std++; no theorem depends on them.)
* The reading of the Go code: citations on each definition.
* The reading of the standard library where the code rests on it: encoding/json,
  bufio.Scanner with ScanLines, strings.TrimSpace, strings.ToLower/ToUpper (as an
  arbitrary function), time formatting, strconv.ParseFloat are modelled;
  strconv.FormatFloat is a parameter of the JSON theorems with the contract that what it
  writes reads back (`float_format`); C64 models it (by searching, not by Ryu's
  arithmetic), proves that what it writes is the shortest decimal, and meets that contract.

### Modelled

pkg/event (event.go, value.go, time.go, key escaping), pkg/eventutil, pkg/pipeline
(config.go, event.go, pipeline.go, processor.go), pkg/config, pkg/processor registry and the
processors set, lowercase, uppercase, append, remove, community_id (its Process does
nothing in this commit), pkg/serialization/protobuf (hand-written converters and generated wire code),
mapinterface, ReflectValue, cmd/sawmill's input loop and loading of definitions, internal/proctemplate, pkg/processor/generate, docs/generate, pkg/metrics, examples/c/cshared, and process and
toObject of examples/wasm (arguments as text).

### Not modelled, or simplified

* Slices: contents only, except in `Slices*`, which models headers, capacities and
  backing arrays and proves (C62) that contents are enough for the built-in processors,
  eventutil.Append and all processor code that shares slices only as `s[i:j:j]`.
* Stack depth: recursion bounded by fuel, theorems hold for all large enough fuel;
  a stack overflow on very deep values is not modelled.  Values containing
  themselves are modelled in the heap, the converters' theorems exclude them.
* Goroutines interleave operation by operation (sequential consistency); torn or
  reordered memory accesses of racy programs are not modelled.
* The shared `NullValue` is treated as a fresh null value, except in `Session` (C66).
* Named time.Time-like types in mapinterface: their String() text is a parameter.
* Pipeline definitions as JSON: nil and empty slices and maps of the configuration are
  identified.
* cmd/sawmill: the reader reports end of file by a call of its own; profiles are opaque bytes; errors of the metrics listener are dropped by the code and not modelled; of YAML, only the
  decoding of nodes is (`Yaml`).
* Prometheus: a counter is the number of increments; the registry identifies a counter
  by name and label values (hash collisions are excluded), the Go, process and build
  collectors and the HTTP handler are not modelled.
* The generators: flags, the reading of the license and intro files, and failing writes of README.md
  are not modelled.
* The configuration library (ucfg, validator) is a parameter.  Assumed where needed: it
  unpacks into the struct type asked for, and set's value is plain (C82: it is, for scalars).
* `if` conditions are not evaluated by the code either (C27).

## Testing the theorems

`seeded/LOG.jsonl` lists edits of the model like realistic bugs, and which theorems
rejected each; the survivors led to the tightenings noted there (C26, C51, C52, C53).
