# Formal model of forego: design

Source: `/repo` (Go, read as text).  Model and proofs: `/verif/rocq/theories`
(Coq 8.16.1, logical name `Verif`).  Properties: `/verif/properties.jsonl`.
Map from properties to theorems: `/verif/MANIFEST.json`.

## Layout

One group of files per area.

* `<Area>Model.v`  Gallina transcription of the Go functions.  Every definition
  cites file and lines, and says where it simplifies.  No proofs.
* `<Area>Spec.v`   small independent specification used in theorem statements
  (only when the statement needs vocabulary beyond the standard library).
* `<Area>Proofs.v` lemmas and invariants.
* `<Area>Props.v`  the property theorems, each closed by `exact`, with
  `Print Assumptions` beneath, and an `Example` showing a concrete case that
  meets the hypotheses.

`Prelude.v` holds list update/swap helpers, byte strings and association maps.

## Conventions of the model

* Go `int`/`int64` are `Z` (or `nat` for slice indices).  Wrap-around is
  modelled only where a property depends on it, and the definition says so.
* Slices are lists.  In-place mutation is a function from list to list.
  Aliasing is modelled only where a property depends on it.
* A Go map is an association list without duplicate keys.  Iteration order is
  arbitrary: the theorems quantify over every permutation of the entries, or the
  model takes the order as an argument.  Maps that are never iterated are
  functions `K -> option V`.
* Strings are byte lists (`list ascii`).
* A panic is an explicit outcome.  Errors are values.  `nil` is an explicit case.
* Goroutines are state machines with one step per atomic action.  Theorems
  quantify over every schedule.
* Loops are structural recursion, or recursion on fuel with a separate
  out-of-fuel outcome that the theorems exclude.
* Callbacks supplied by the user of the library are universally quantified
  functions (with an explicit state where they may have effects).
* External code (Go's standard library) is transcribed where its behaviour
  matters (`container/heap`, `errors.Is/As`, JSON text, `strconv.Quote`, channels,
  mutexes, wait groups), else an explicit parameter of the definition.

## Trusted base

* Coq's kernel.  `coqchk` is run on the whole development.
* The transcription of Go into Gallina, definition by definition.
* The semantics given to Go's own library and runtime in the Model files.
* Axioms: what `Print Assumptions` prints under each theorem.  The target is
  "Closed under the global context" for every theorem.

## Plan per property

| id | modelled code | how |
|----|---------------|-----|
| C01 | Reverse loop over indices | loop invariant, equality with `rev` |
| C02 | Split, Flatten with slice bounds as panics | arithmetic on the two ceilings, induction on buckets |
| C03 | Permute, permute, next | invariant of Johnson-Trotter by induction on n: the largest element sweeps over each ordering of the rest |
| C04 | Contains, AddUnique, Copy | induction |
| C05 | Set over an atomic sync.Map | refinement to a predicate, induction on the history |
| C06 | OrderedMap with tombstones | refinement to an insertion-ordered association list |
| C07, C08, C10 | LRU.Get, Invalidate, Keys and container/heap up, down, Fix, Push, Pop | representation invariant, refinement to an abstract map |
| C09 | same | full claim false (hit updates a copy): `_refuted`; eviction by load time proved |
| C11 | Mem | refinement |
| C12, C13 | RequestCache as an interleaving machine | invariants over all schedules; C13 false for one schedule: `_refuted` |
| C14, C15 | KeyValue | refinement, all iteration orders |
| C16 | Filter.Check and GoString | injectivity on scalars; false on containers: `_refuted` |
| C17, C18, C19 | shutdown state machine | invariants over all schedules |
| C20-C23 | context chains | induction on the chain; C22 and span uniqueness false: `_refuted` |
| C24-C26 | error trees, errors.Is/As/Unwrap | induction on the tree; nested gates: `_refuted` |
| C27 | log configuration cells | false: `_refuted`; strongest true version proved |
| C28 | FormatMsg argument rewriting | non-interference |
| C29, C30 | JSON encoder and decoder at byte level, UTF-8 included | round trip by induction on the node |
| C31-C34, C74, C75 | Marshal/Unmarshal over a universe of Go types (`Mar*`) | induction on the type; all false as stated: `_refuted` with the exact condition where there is one |
| C35 | Pipe as an interleaving machine | invariant over all schedules |
| C36 | time.Duration text | arithmetic round trip |
| C37, C38 | config.From, unmarshalText (`Conf*`) | equivalence with a grammar; empty variables and lists: `_refuted` |
| C76 | slices of config values in a small memory | invariant of append; `_refuted` with spare capacity |
| C39-C41, C77 | NewHandler, parseTags, Recv and Send of client and server over the types of `Mar*` (`Api*`) | non-interference, equivalence with the end-to-end equation, also through JSON text; `_refuted` where false |
| C42-C44, C78-C84 | handleRequest, the response writers over net/http's, CallHandler, RegisterAPI, Client.API (`Http*`) | non-interference, invariants over all call sequences, equivalence with `Api*`; `_refuted` where false |
| C45 | ReadAll over a reader script | false with data+EOF: `_refuted`; true otherwise |
| C46, C85, C91 | Conn.Loop and wsImpl.Read as an interleaving machine (`WsModel` Loop) | invariant over all schedules; `_refuted` where false |
| C47, C48, C86-C90 | RpcHandler.Register, onFrame, channels and the calls of methods (`WsModel` Rpc) over arbitrary types and methods | invariants over all sequences of frames, simulation by the history; `_refuted` where false |
| C49 | stringify over strconv.Quote | injectivity |
| C50-C52 | histogram, counter, gauge | fold invariants, interleavings; C51 false: `_refuted` |
| C53 | TryLock interleaving machine | invariant |
| C54 | sync.Map wrappers | refinement; nil interface case `_refuted` |
| C55 | BufferedRWC | prefix invariant; Close case `_refuted` |
| C56 | Quote | injectivity by decoding |
| C57-C59, C92-C94 | schemaFromType and UpdateOpenAPI over an arbitrary graph of types (`OaModel`), with MarModel and ApiModel for the JSON; `OjModel` is Marshal over the same graph of types, with floats, times, interfaces, recursive types and methods (what these return is a parameter) | termination measure on structs without component; closure and shape invariants over all calls; conformance by induction on types; `_refuted` where false |
| C60 | Pairs | `_refuted` for duplicates; proved for distinct keys |
| C61 | RequestCache.Invalidate | invariant of the C12 machine |
| C62, C63 | Encode/Decode | stability under re-encoding; trailing bytes: `_refuted`, with the true part |
| C64 | tag keys in Context.Value | `_refuted` for plain string keys; proved for the others |
| C65, C66 | error trees as in C24 | C65 `_refuted` (uncomparable parts), true part proved; C66 by induction on the construction |
| C67, C68 | FormatMsg, WithTag of a redacted value | `_refuted`, with the true part |
| C69, C70 | WaitGroup inside the shutdown machine | `_refuted` (reuse during wake-up, double release); safety of careful programs by invariant |
| C71 | HoldAndWait in the same machine | invariant |
| C72, C73 | BufferedRWC with cond waiters and caller memory | `_refuted`, with the true part by invariant |
| C95, C96 | enc.Time and time.Time in the handler, with Go's absDate, Date, appendFormatRFC3339 and parseRFC3339 (`Time*`); what time.Parse accepts beyond RFC 3339 is an arbitrary function | Go's day arithmetic equals counting days; parsing equals a grammar; `_refuted` for years and offsets without such a text |
| C97, C98 | prom's Print methods, Register, Range, Handler and what the HTTP server observes (`Px*`); fmt's floats are any texts that a reader of numbers reads back; concurrent observations during a scrape are covered by C51 | a reader of the Prometheus format as specification; induction over lines, labels and metrics; `_refuted` by texts computed from a request |
| C99 | doc and example tags in schemaFromType (`OaModel`, `OaExample`); parsing of floats is a parameter | case analysis on kinds, induction over fields; `_refuted` by a computed schema |
| C100, C101 | wsImpl.Write, Close and Read on the bytes of the connection (`Fr*`); golang.org/x/net/websocket (hybi frames) and bufio.Writer are not in /repo, they are modelled as documented and are trusted; single calls of bufio are atomic | RFC 6455 frames as specification, shown to be readable in one way only; invariant over all schedules; `_refuted` by a schedule, and for every fragmented or cut message |
| C102 | JSON.Decode (`JsonModel`: the scanner of encoding/json is not in /repo, it is modelled as documented and is trusted) | the grammar of RFC 8259 as an inductive relation between texts and trees (`RfcSpec`), soundness and completeness of the parser by induction on the derivation and on the fuel; `_refuted` by a text |
| C103 | jsonish, equalJSON, EqualsJSON, NotEqualsJSON (`EqModel`), on what enc.Marshal gives; json.Unmarshal into an interface value and strconv.ParseFloat are not in /repo: modelled as documented (numbers rounded to the nearest float64, ties to even) and trusted; the text of floats is a parameter with the three stated properties | texts related to trees by the grammar of C102; rounding shown to be the nearest float, uniquely; equality of texts iff equality of members by decoding one way and reordering the other; `_refuted` for all unordered structs, and by texts |
| C104 | onData of RpcConn: enc.Unmarshal into a Frame (`MarModel`), onFrame, run by Conn.Loop (`WsModel`) | frames as a relation on JSON nodes, equivalent to Unmarshal for all nodes that JSON.Decode gives; composition of the theorems on Loop and on frames; `_refuted` for every bad message, state and schedule |
| C105 | test/assert.go, equals.go (texts), strings.go, list.go, util.go; utils/ast/call_args.go (`AstModel`, `AsModel`): the walk over the syntax tree, whose nodes are an arbitrary tree of blocks, assignments, calls and others; parsing and reading files are parameters | an assertion decides a proposition; induction over trees for the walk; `_refuted` by sites, and for all sites without source |
| C106 | the same | which assignments a place sees, as a relation on trees; induction over it |
| C107 | test/nil.go, empty.go, errors.go; Go values as reflect shows them (`GvModel`), types without methods | zero values by recursion over types, against reflect's IsZero; `_refuted` for all functions, typed nil pointers and unlisted kinds |
| C108 | test/equals.go EqualsGo over fmt's %#v (`GvModel`, written from the documentation and source of fmt as Go 1.20 has it; texts of floats are a parameter) | the text determines the value: prefix-freeness by induction over types, uniqueness of sorting for maps; sameness of values as an inductive relation |
| C109, C110 | http/server.go Server.Listen (`LsModel`): its two goroutines, the listener that tells of the first Accept, and net/http's Serve and Shutdown as Go 1.20 has them (registering of the listener, inShutdown, listener group, idle connections, timeout), over the shutdown machine of C17 | invariants over all schedules, possible runs for returning and releasing; `_refuted` by a state that is stuck for ever and by runs |
| C111 | http/ws Conn.Send and the marshalling of Frame (`TcModel`: `frame_node`, `wire`) over the JSON model of C29 and the reader of C104 | via the round trip of C29, all frames; `_refuted` for all data that omitempty drops |
| C112 | http/ws/test.go TestClient, testWS (`TcModel`): Open, the function it returns, Close, Read and Write, over the RPC machine of C47; the one-place channels, the unsynchronised map | an invariant with phases per channel, over all schedules; `_refuted` by runs, and by a state in which a call waits for ever |
| C113 | enc.Float and its JSON text (`FlModel`: `json_text`, both forms of encoding/json), read back by strconv.ParseFloat; strconv's choice of digits is not modelled: the only thing assumed of them is that the float is the nearest to them | the text is a number of JSON with the value of the digits; the nearest float is unique; `_refuted` by a computed value |
| C114 | Float64 and unmarshalNumericInto (enc/numeric.go) over float64 and float32 as IEEE 754 has them, conversions and ParseFloat rounding to nearest as documented (`FlModel`: `round`, exact integer arithmetic; texts that are no decimal numbers are a parameter) | rounding shown to give the nearest float, uniquely, for any format; `_refuted` by computed numbers |
| C115 | the native methods of enc and unmarshalling into an interface (`FlModel`: `native`, `into_any`), against encoding/json's documented result (`FlSpec`: `std`) | induction over JSON values; `_refuted` by computed values |
| C116, C117 | http/client.go Get, Post, Do, API as steps of concurrent calls (`ClModel`), over net/http's connections as documented (given back at the end of the body, on Close, on errors and when the context is done; idle ones do not count against the limit); whether API can use the content is a parameter (C80 has the details) | an invariant over all schedules; `_refuted` for every such answer, and for every limit by a run of that length |
| C118 | warnIneff and the switch of Handler.unmarshal that calls it (`IfModel`): goroutines in Unmarshal over the shared map; Go's runtime stops the program when a read or write of a map begins during a write (as Go 1.20 does) | invariants over all schedules; `_refuted` for every such type after any history |
| C119 | the memory behind Server.Recv (`IsoModel`): a heap of objects, the live fields of the registered object that NewHandler keeps, and requests that allocate and write whatever they can reach; global variables of the operations are not modelled (what they refer to would be public too) | ownership invariant over all executions, with a closed set of public memory |
| C120, C121, C122 | what Server registers and documents (`RtModel`: RegisterAPI, HandleRequest, Handle, the ones that do not document), over net/http's ServeMux as Go 1.20 has it (Handle, match, cleanPath, the redirects) and path.Clean on the elements of the path; left out: the methods CONNECT and OPTIONS *, nil handlers, url.Parse; whether a schema can be made is a parameter | cleaning shown to give the clean paths; invariants over all histories of calls; `_refuted` universally over hosts and paths |
| C123 | Unmarshal of `MarModel` again with Handler.path as a slice over a heap of arrays (`UfModel`), append writing into spare capacity or moving to a new array whose size is a parameter (`double`: growslice of Go 1.20 below 256); left out: functions that write to the path, a Handler used by several goroutines | refinement of the paths of `MarModel` with a frame for what append leaves alone; the calls shown to enumerate an inductive `Unknown` without repetition |
| C124, C125, C126 | Marshal and Unmarshal over types with declared types in them (`CuModel`): the type switches of Handler.Marshal and Handler.unmarshal by Go's method sets, methods as parameters, MarshalJSON with JSON.Decode after it as one; sync.Map's own methods over its content (Range as an iteration over it); left out: interfaces, methods that change the value, promoted methods of embedded fields as such (they are methods of the struct), recursive types | an inductive `Writes` that uses the methods everywhere, shown to be what Marshal does; induction over types; `_refuted` for all such types and contents |
| C127, C128 | the default logger (`LgModel`): wrapSlogLogger, AsList in any order, the ReplaceAttr of NewDefaultSlogLogger, the shared level; slog's JSON handler (log/slog of Go 1.21, not in /repo, so modelled from its documentation and source and trusted): built-in attributes, groups, escaping, json.Compact for tags, Level.String; a program of SetDefaultLoggerLevel, NewDefaultSlogLogger and log calls; fmt.Sprintf, the clock and the error texts of json.Compact are parameters; left out: the source from runtime.Caller (C151), slog handlers of the user, failing writers, concurrency (each line is one Write) | the line is read by the independent grammar of `RfcSpec`; induction over strings, tags and operations; `_refuted` for all calls |
| C129 | as C89 and C90 (`WsModel`): the frames sent for errors of methods, enc.MustMarshal of errors; the frame "disconnect" (`WdModel`), with the error of enc.Unmarshal into a Frame as any function of the node, and with a Close that fails only after a Close | two servers that differ only in the inside of errors are shown to send the same frames (simulation over all that comes); the list of possible last frames is given before the server is; `_refuted` for every error |
| C130, C131 | StackFrame (`SfModel`): AbsFile, FuncName, ShortFunc, the search for go.mod from the working directory upwards with its regular expression; the file system is a parameter; left out: Getwd failing, symbolic links, Windows; Stack and Caller themselves are in C151 | a grammar of go.mod of its own (`declares`); the leftmost match by induction over the text; `_refuted` for all module paths |
| C132 | Handler.Marshal over values in memory (`CyModel`): pointers, slices, maps and structs with addresses; calls nested to any depth; left out: methods of types (`CuModel`), the texts of errors | reachability through written parts (`part`, `has_cycle`); returning by induction over the parts not yet seen, not returning by descent over the depth |
| C133, C32 (Float nodes) | conversions of numbers (`NdModel`): Integer/Float/Digits.Duration, MustFloat, MustInteger, IsFloat, int64 and uint64 of a float64, products of float64; conversions of floats that do not fit are parameters, as the language leaves them open | the vocabulary of floats of C113 and C114; error bounds of roundings, added up over the integers |
| C134 | the goroutines of a websocket connection (`WhModel`: the handlers of Handler.Server and RpcHandler.Server, Conn.Loop with its reader), over the machine of shutdown (`ShutModel`); what OnConnect and OnData do is left open but for how they end; left out: the handshake, pings, messages to the client; a panic of the package shutdown ends the run | invariants over all schedules; a rank that each step of the connection lowers once its client has left |
| C135 | http.TestAPI and api.Test (`TaModel`) over the model of api.Handler, against http.Client.API with RegisterAPI (`HttpModel`); the logging of the tests and what pointers in the object share are left out | nodes that represent the same value are unmarshalled alike into any variable (`TaProofs`), so the data may be handed over as it is or as text |
| C136 | the url of the request of Client.API (`UrModel`): URL.ResolveReference, resolvePath and unescape of net/url, what net/http refuses to send; an url is taken as parsed, with EscapedPath as its path, and Parse of String() to give it back; over the paths of the server of `RtModel` | a path that is escaped has no more slashes and dot elements than the path it is for, so a clean path is resolved to itself; with C120 |
| C137 | Handler.unmarshal with Factory (`FcModel`) over the types of `MarModel` with interface types; whether a native value implements an interface and whether reflect can convert what a factory made are parameters; without Debugf and UnhandledFields | induction over types; `C137_plain` relates it to `MarModel` |
| C138 | Sort and SortFunc with the pattern-defeating quicksort of Go 1.20 under sort.Slice (`SoModel`): insertion sort, heap sort, pivots, partitions, partial insertion sort, broken patterns; an index out of the slice is a panic; the random numbers are a parameter; less and score are functions without effects | a wp calculus over the slice; induction on the length of the part; invariants of each loop |
| C139 | the Handshake functions of Handler.Server and RpcHandler.Server with ReadHandshake, Origin and AcceptHandshake of x/net/websocket and ParseRequestURI of net/url (`WkModel`): whether each returns an error, and the status; headers as Header.Get gives them; lower case of ASCII letters only; the library sources are not in the sandbox, they are modelled as published | case analysis over the parser, lemmas for the texts of RFC 6454 origins and RFC 3986 schemes |
| C140 | MetricsMutex (`MmModel`): each access to a field, to the clock and to the mutex is a step, any number of goroutines; sync.Mutex is a boolean that is set and cleared atomically; goroutines call Lock and Unlock in turns; logging is one step | invariant over all executions that relates where a goroutine is, its own history and the fields |
| C141 | utils/sync.Map with any number of goroutines (`CmModel`): the operations of `SMapModel` are one step each, as those of Go's sync.Map; Range takes the keys at once (all that are in the map, and maybe others) and loads each value in a step of its own, in any order; keys and values not of interface types | invariant over all executions about each call that has not returned; the trace carries the map after each step |
| C142 | any number of goroutines that register paths on a Server, get /openapi.json and send requests (`RgModel`): the mux as a map with a lock, of whole patterns; OpenAPI.Paths as a Go map whose flag for writes in progress the runtime checks; the rest of the document is left out | invariants over all executions: both maps only grow, what has been observed of a goroutine says where it stands, a registration that is alone is the only one at the map |
| C143 | methods that hold a lock from beginning to end, called any number of times at once (`LkModel`): a call waits, takes the lock, does what `MemModel`, `LruModel` or `KvModel` say, releases it and returns; a loader may make calls of its own, which wait for the lock of the call around them; Range of the store, Keys and String of the LRU cache and loaders that panic are left out (String takes no lock) | linearizability by an invariant that carries the sequence; progress by a weight that falls with each step; deadlock and delay as invariants of all continuations |
| C144 | calls of Add, Has and Remove as one step each, as they are one call of a sync.Map, and All as a Range that takes the keys and loads them one by one (`ScModel`, over `ListsModel`); left out: elements that cannot be compared | invariant over all interleavings that ties the set to the parity of the changes of each element; for All an invariant of the running call; `_refuted` by an execution |
| C145 | requests and readers of the metrics at any time (`PbModel`): a request is observed in its series after its handler and is answered then; a reader takes the lock of a series, writes its lines when its client reads, and releases it, or fails; left out: the numbers (C50), other metrics than histograms, whose Print takes no lock, and what of a long answer net/http sends before the handler returns | progress by letting the readers of the series go on; the delay as an invariant of all continuations without that reader |
| C146 | the series of the histogram http_request after any list of requests (`McModel`), each served by the handler the mux chooses (any choice, any handler) as in `HttpModel.serve` and observed as in `PromModel`; left out: requests at the same time (the set of series does not depend on the order of the observations, C50) | invariant over the observations: the keys of the table are the distinct label strings so far; label strings are injective; counting by inclusion of lists without repetition |
| C147 | the example service (`ExModel`): the map, Get and Set, the members of a request read into a string and an interface (`FlModel.into_any`), Marshal of what is in an interface, the JSON of the reply; left out: the rules of api.Server for other members, identity and errors (C39, C40, C79), keys that are no strings | induction over the calls; the value by induction over JSON values through Decode, native, Marshal and Encode (C29, C113, C115); a printer with exact digits shows that the assumption on strconv can be met |
| C148 | the same operations as steps of goroutines: reading and writing the map are not atomic; left out: what Go does when map accesses overlap | invariant of executions without overlap; explicit interleavings |
| C149 | `return t, t.Parse(s)` with both orders of reading the variable and making the call (`AtModel`), on the parsers of `TimeModel` and `DurModel` | cases over the order, with C36 and C96 |
| C150 | arrays and slices, UnmarshalJSON of ctx.JSON and of json.RawMessage, json.Unmarshal and enc.Unmarshal as far as which slice is given to it, json.Decoder reusing its array (`JrModel`); left out: the syntax of the documents, a decoder whose array grows or holds several documents at once | induction over the writes and over the documents, byte by byte |
| C151 | the functions that are running as a list of frames, each call adding one and noting its line; runtime.Caller as the nth of them; the functions that find their caller, with the numbers they pass (`StkModel`), the errors as in `ErrModel`; left out: what the compiler records as file names | the loop as firstn and skipn; a position is split at its last colon |
| C152 | test.Context as operations of `CtxModel` (`XtModel`); left out: t.Name, t.Deadline and t.Cleanup themselves, whether there is a terminal | the state after the operations is computed; invariant over all later operations that nothing else ends the context; C21 |
| C153 | the loops of utils/maps (`MpModel`), the order of a map as any permutation | induction over the loops |
| C154 | goroutines in Send and Close, byte by byte, with the lock of wsImpl, the lock of WriteClose and a bounded way to each client (`SwModel`); left out: what is in the frames (C100), a client that disconnects, the keepalive of TCP | invariant that the holders of locks are writing; a state that no step but reading leaves; runs by induction over what is left to write |
| C155 | the request, the goroutine of ReadAll, the client, the clock and the two timeouts as a transition system (`CallTModel`); left out: that closing the body waits for a Read in progress, what Handler writes (C44) | invariant over all steps; runs by induction over what is left to read |
| C156 | the messages of the errors of Unmarshal over the types of `MarModel`, and path.String (`EwModel`); of the message only what it may depend on, not its words; left out: types with methods, interfaces, floats, Factory | induction over types, with a relation for the places in the data; unique reading of the text of paths |
| C157 | the contexts of listeners, connections and requests: BaseContext, ConnContext, the handler of NewServer and Handle, over the contexts of `CtxModel` (`RqModel`); the contexts that net/http adds in between are as its documentation says; left out: pairing of a CancelFunc with the moment net/http calls it, it may be at any time | invariant over histories for the shape of each context; each CancelFunc owns its cancelCtx |
| C158 | the contexts of the websocket connections of Handler.Server and RpcHandler.Server, and SID (`RwModel`), over the requests of C157; left out: an OnConnect that returns another context | invariant over histories, on that of C157 |
| C159 | no new code: the contexts of C157 and C158 (`RqModel`, `RwModel`) in the log calls of C127 (`LgModel`) | composition of C127 with the shapes of the contexts; JSON strings are read in one way (C102) |
| C160 | `EtModel`: FormatMsg, where json.Marshal fails for tags that are no JSON, over the errors of `LogModel` and the log calls of C127; that encoding/json compacts the tags and escapes <, >, & in them is left out | the text of the tag is a JSON text of the expected tree, by the grammar of RFC 8259; C102: it is read in one way; composition with C127 and C157 |
| C161 | UnmarshalNode of utils/sync.Map by any number of goroutines (`UmModel`): each round of its loop is one store, keys in any order; with calls of Store, Delete and Load, each atomic; what enc.Unmarshal makes of the node is a parameter (any document or an error); left out: keys that are no texts | invariant over all executions: each key has been written, or all documents that have it have still to write it; `_refuted` by executions |
| C162 | test/equals.go EqualsType over fmt's %T (`AsModel`, `GvModel`): the text of a type is its name as reflect gives it, a parameter of the type | cases, over C105's lemmas on call sites; `_refuted` by two types of the same written name |

Parts of the repository not modelled at all: `example/cmd`,
`utils/memsql`, the test helpers that only print, TLS/listener details, `reflect` itself.
