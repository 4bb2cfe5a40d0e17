{"id": "C01", "title": "lists.Reverse reverses in place", "statement": "After lists.Reverse(s) the slice holds the same elements in exactly the opposite order, for every length (even, odd, 0, 1), and applying it twice gives back the original slice.", "quantifier": "every slice of every length and element type", "why_tests_cant": "tests pick a few lengths; an off-by-one in the middle index only shows for some lengths", "anchors": ["utils/lists/reverse.go:Reverse"]}
{"id": "C02", "title": "lists.Split is a balanced partition", "statement": "For a positive maximum, lists.Split never panics, concatenating the pieces gives the input back, no piece is longer than the maximum, no piece is empty unless the input is, the number of pieces is the least possible, every piece but the last has the same length, and that length is the least that fits in that number of pieces. For a non-positive maximum it panics.", "quantifier": "every slice and every integer maximum", "why_tests_cant": "the two nested rounding divisions can go out of range only for particular (length, maximum) pairs", "anchors": ["utils/lists/group.go:Split", "utils/lists/group.go:Flatten"]}
{"id": "C03", "title": "lists.Permute enumerates all orderings exactly once", "statement": "Calling a Permute iterator until it returns false shows, in the caller's slice, every ordering of the original elements' positions exactly once (n! of them for n elements), the first being the original order; afterwards it returns false for ever and changes nothing.", "quantifier": "every slice length n and every element type", "why_tests_cant": "n! grows too fast to test; a wrong direction flip only loses orderings for larger n", "anchors": ["utils/lists/perm.go:Permute", "utils/lists/perm.go:permute", "utils/lists/perm.go:permutation.next"]}
{"id": "C04", "title": "lists.AddUnique and Contains keep a duplicate-free list", "statement": "Contains reports exactly membership; AddUnique leaves a list that already has the element unchanged and otherwise appends it at the end, so any sequence of AddUnique calls yields the distinct elements in order of first occurrence.", "quantifier": "every sequence of insertions", "why_tests_cant": "statement about all call sequences", "anchors": ["utils/lists/lists.go:Contains", "utils/lists/lists.go:AddUnique", "utils/lists/lists.go:Copy"]}
{"id": "C05", "title": "lists.Set behaves as a mathematical set under every history", "statement": "For every history of Add, Has, Remove and All calls, Add returns true exactly when the element was absent, Remove returns true exactly when it was present, Has reports membership and All lists each member exactly once.", "quantifier": "every finite history of atomic calls", "why_tests_cant": "quantifies over all histories", "anchors": ["utils/lists/set.go:Set"]}
{"id": "C06", "title": "OrderedMap is an insertion-ordered map", "statement": "After any history of Put and Delete, Get, Len, Keys, Values and Range agree with an insertion-ordered association list: overwriting keeps the position, deleting and re-adding moves to the end, deleted keys are never visited, Range stops at the first error and returns it.", "quantifier": "every history of operations, every key and value type", "why_tests_cant": "tombstones left by Delete interact with later Puts only in long histories", "anchors": ["utils/ordered_map.go:OrderedMap"]}
{"id": "C07", "title": "LRU cache returns what was last loaded, and loads only on a miss", "statement": "In every history of Get and Invalidate calls, Get on a resident key returns HIT with the value of the most recent successful load of that key and does not run the loader; on a non-resident key the loader runs exactly once and its result decides MISS (cached), NO (size 0, not cached) or ERR (error returned, not cached).", "quantifier": "every history, every loader behaviour, every clock", "why_tests_cant": "heap moves can desynchronise the key index and return another key's value only after particular sequences", "anchors": ["utils/caches/lru.go:LRU.Get", "utils/caches/lru.go:lruHeap"]}
{"id": "C08", "title": "LRU cache never exceeds its budget and never corrupts its bookkeeping", "statement": "With a non-negative MaxSize, after every call the total size of the resident entries is at most MaxSize and equals the internally tracked size, resident keys are pairwise distinct, the key index points at the right entry, and no call panics.", "quantifier": "every history, every non-negative size returned by the loader (including sizes larger than the budget)", "why_tests_cant": "arbitrary histories and sizes", "anchors": ["utils/caches/lru.go:LRU.Get", "utils/caches/lru.go:LRU.Invalidate", "utils/caches/lru.go:LRU.Keys"]}
{"id": "C09", "title": "LRU cache evicts the least recently used entry", "statement": "When the budget is exceeded the entries dropped are those whose last use (load or hit) is oldest.", "quantifier": "every history with strictly increasing clock readings", "why_tests_cant": "needs a history with hits between loads", "anchors": ["utils/caches/lru.go:LRU.Get"]}
{"id": "C10", "title": "LRU Invalidate removes exactly the given key", "statement": "After Invalidate(k), k is not resident, and every other resident key is still resident with the same value; invalidating an absent key changes nothing.", "quantifier": "every reachable cache state and key", "why_tests_cant": "relies on the heap moving the invalidated entry to the root whatever the shape of the heap", "anchors": ["utils/caches/lru.go:LRU.Invalidate"]}
{"id": "C11", "title": "Mem cache loads each key at most once until invalidated", "statement": "In every history, Get on a cached key returns the cached value without running the loader, a failing load is never cached and its error is returned, and Invalidate makes exactly that key load again.", "quantifier": "every history", "why_tests_cant": "quantifies over all histories and loader outcomes", "anchors": ["utils/caches/mem.go:Mem"]}
{"id": "C12", "title": "RequestCache serves only unexpired results of that key's own fetch", "statement": "Under every interleaving of concurrent requests, invalidations and fetch outcomes, a HIT returns the (value, error) produced by a completed fetch of the same key whose expiry had not passed, and two fetches for the same cache entry never run at the same time.", "quantifier": "every interleaving of any number of goroutines, every fetch result and clock", "why_tests_cant": "interleavings between the LRU lookup and the per-entry lock cannot be enumerated by tests", "anchors": ["utils/caches/request.go:RequestCache.Request"]}
{"id": "C13", "title": "RequestCache collapses concurrent requests into one fetch", "statement": "If several goroutines request the same missing key concurrently, and the fetch succeeds with a positive time to live, only one fetch is made for them.", "quantifier": "every interleaving", "why_tests_cant": "only one particular schedule breaks it", "anchors": ["utils/caches/request.go:RequestCache.Request"]}
{"id": "C14", "title": "KeyValue store is a map under every history", "statement": "After any history of Upsert and Delete, Get(k) returns the last upserted value for k that was not deleted since, else reports absence; operations on other keys never change it.", "quantifier": "every history", "why_tests_cant": "quantifies over all histories", "anchors": ["storage/keyvalue.go:KeyValue"]}
{"id": "C15", "title": "KeyValue Range visits exactly the matching entries once", "statement": "Range calls the callback exactly once for each entry that satisfies all filters as of the call, even if the callback itself writes to the store; it stops at the first callback error, turns EOD into nil and returns any other error; an unsupported comparison is reported before any callback runs.", "quantifier": "every store content, filter list, map iteration order and callback", "why_tests_cant": "Go map iteration order is random and callbacks may mutate the store", "anchors": ["storage/keyvalue.go:KeyValue.Range", "storage/keyvalue.go:Filter.Check"]}
{"id": "C16", "title": "Equality filters compare values", "statement": "An EQ filter keeps exactly the entries whose field equals the filter value (a missing field counting as null) and NEQ exactly the others.", "quantifier": "every pair of nodes", "why_tests_cant": "equality is decided by comparing rendered text, so a collision or an unstable rendering breaks it for particular values only", "anchors": ["storage/keyvalue.go:Filter.Check", "enc/scalar.go:GoString", "enc/numeric.go:GoString", "enc/list.go:GoString", "enc/map.go:GoString"]}
{"id": "C17", "title": "shutdown.Begin is idempotent and permanent", "statement": "Whatever the number and interleaving of Begin calls, signals and timers, the Started channel is closed exactly once, it is closed if and only if Begin happened or a signal arrived, it never reopens, and the five-second channel is closed at most once and only after Started.", "quantifier": "every interleaving of any number of callers", "why_tests_cant": "double close panics only under particular schedules", "anchors": ["shutdown/shutdown.go:begin", "shutdown/shutdown.go:Started", "shutdown/shutdown.go:Begin"]}
{"id": "C18", "title": "shutdown.Done waits for every Hold", "statement": "A channel obtained from Done is closed only if at some moment after the call no hold was outstanding; while a hold stays unreleased it is never closed; once all holds are released and none is taken the channel can close.", "quantifier": "every interleaving of Hold, Release and Done", "why_tests_cant": "waiting goroutines and counters interleave arbitrarily", "anchors": ["shutdown/shutdown.go:done", "shutdown/shutdown.go:hold", "shutdown/shutdown.go:Done"]}
{"id": "C19", "title": "WaitForSignal escalates 1-2-3 and otherwise waits for the holds", "statement": "WaitForSignal begins the shutdown at the first signal, cancels the given context at the second and exits the process at the third; otherwise it returns only once no hold is outstanding.", "quantifier": "every sequence of signals, holds and releases", "why_tests_cant": "signals race with hold releases", "anchors": ["shutdown/shutdown.go:waitForSignal"]}
{"id": "C20", "title": "Tags are visited once, oldest first, across any context chain", "statement": "ctx.RangeTag calls the callback once for each WithTag in the ancestry of the context, oldest ancestor first, whatever other wrappers (values, cancellation, deadlines, Detach, tracking) lie between, stops at the first error and returns it.", "quantifier": "every context chain and every callback", "why_tests_cant": "quantifies over all ways to nest contexts", "anchors": ["ctx/tags.go:WithTag", "ctx/tags.go:RangeTag", "ctx/tags.go:tagC.Value"]}
{"id": "C21", "title": "Detach keeps every value and drops every cancellation", "statement": "For every context c and key k, Detach(c).Value(k) equals c.Value(k), and no cancellation or deadline of any ancestor, before or after the call, makes Detach(c) or a context derived from it done.", "quantifier": "every context chain, key, and history of cancellations", "why_tests_cant": "quantifies over all chains and later cancellations", "anchors": ["ctx/detach.go:Detach", "ctx/detach.go:detachedC"]}
{"id": "C22", "title": "Detach also hides the cancellation cause", "statement": "If Err() is nil then Cause is nil, for every context derived through Detach.", "quantifier": "every context chain", "why_tests_cant": "context.Cause looks the cancellation up through Value, which Detach forwards", "anchors": ["ctx/detach.go:detachedC", "ctx/ctx.go:Cause"]}
{"id": "C23", "title": "Tracking ids are inherited and span ids unique", "statement": "GetTracking returns the id of the closest WithTracking ancestor through any wrappers; a Span's id extends its parent's id, and two Spans opened from the same context have different ids.", "quantifier": "every context chain and number of spans", "why_tests_cant": "uniqueness is a property of all histories", "anchors": ["ctx/span.go:WithTracking", "ctx/span.go:GetTracking", "ctx/span.go:Span"]}
{"id": "C24", "title": "Wrapping an error keeps its identity and wraps only once", "statement": "WrapError(c, nil) is nil; otherwise the result has the same message as the argument, matches the same targets (other than ctx.Error itself) under errors.Is and the same http.Error under errors.As, contains a ctx.Error, and wrapping again (any number of times, any contexts) returns it unchanged.", "quantifier": "every error tree (including multi-errors) and context", "why_tests_cant": "quantifies over all error trees", "anchors": ["ctx/error.go:WrapError", "ctx/error.go:NewErrorf", "ctx/error.go:maybeWrap", "ctx/error.go:Error.Is", "ctx/error.go:Error.Unwrap"]}
{"id": "C25", "title": "HTTP status comes from the outermost http.Error", "statement": "http.ErrorCode(err, def) is the code of the first http.Error met walking the error tree from the outside (depth first, left to right), and def exactly when there is none.", "quantifier": "every error tree", "why_tests_cant": "quantifies over all error trees", "anchors": ["http/error.go:ErrorCode", "http/error.go:NewErrorf"]}
{"id": "C26", "title": "ErrorGate only swallows its own escape", "statement": "utils.ErrorGate returns nil exactly when the callback's error is (or wraps) the error produced by its own gate, and otherwise returns the callback's error.", "quantifier": "every callback, including nested gates", "why_tests_cant": "nesting depth is unbounded", "anchors": ["utils/errors.go:ErrorGate"]}
{"id": "C27", "title": "Setting a logger on a child context leaves the parent alone", "statement": "log.WithLogFunc and log.WithHelper affect only the returned context and its descendants; the parent and its other descendants log as before.", "quantifier": "every context tree and sequence of calls", "why_tests_cant": "needs a tree where the parent already carries a configuration", "anchors": ["ctx/log/log.go:WithLogFunc", "ctx/log/log.go:WithHelper", "ctx/log/log.go:extractConfig"]}
{"id": "C28", "title": "Redacted values never reach the log text", "statement": "For any two log calls that differ only in the contents of redacted arguments, the rendered message and tags are the same.", "quantifier": "every format, argument list and redacted contents", "why_tests_cant": "non-interference relates all pairs of runs", "anchors": ["ctx/log/log.go:FormatMsg", "ctx/log/redacted.go"]}
{"id": "C29", "title": "JSON decode inverts JSON encode on nodes", "statement": "For every node with valid UTF-8 strings, distinct map keys, valid digits and nesting within the decoder's limit, decoding its JSON encoding yields the same tree with numbers as Digits, pairs as maps and times/durations as their text; strings with any control character, quote, backslash, HTML character or non-ASCII rune survive unchanged.", "quantifier": "every node tree", "why_tests_cant": "the set of strings and trees is infinite; escaping bugs hide in single code points", "anchors": ["enc/json.go:JSON.Encode", "enc/json.go:JSON.Decode", "enc/enc.go:fromNative"]}
{"id": "C30", "title": "JSON encoding is deterministic", "statement": "The encoding of a map node does not depend on Go's map iteration order, and two map nodes with the same entries have the same encoding.", "quantifier": "every map node and every iteration order", "why_tests_cant": "iteration order is random, tests see one order", "anchors": ["enc/map.go:Map.MarshalJSON", "enc/json.go:JSON.Encode"]}
{"id": "C31", "title": "Marshal then Unmarshal restores the value", "statement": "For every Go type built from booleans, sized integers, strings, pointers, slices, arrays, string-keyed maps and structs, and every value of it, unmarshalling the node produced by Marshal into a zero value yields the original value, directly and through JSON text.", "quantifier": "every type in that universe and every value of it", "why_tests_cant": "quantifies over all types and values", "anchors": ["enc/handler.go:Handler.Marshal", "enc/handler.go:Handler.Unmarshal", "enc/map.go:unmarshalInto", "enc/list.go:unmarshalInto"]}
{"id": "C32", "title": "Numbers are stored exactly or rejected", "statement": "Unmarshalling a number into an integer field either stores exactly that number or returns an error.", "quantifier": "every number text and every integer width and signedness", "why_tests_cant": "only particular magnitudes or notations break it", "anchors": ["enc/numeric.go:Digits.unmarshalInto", "enc/numeric.go:Integer.unmarshalInto", "enc/numeric.go:Digits.Int64", "enc/numeric.go:Digits.Uint64"]}
{"id": "C33", "title": "Fields tagged json:\"-\" are never exposed or set", "statement": "A struct field tagged \"-\" never appears in the marshalled output and is never changed by unmarshalling any input.", "quantifier": "every struct, value and input document", "why_tests_cant": "only one particular input key breaks it", "anchors": ["enc/util.go:parseTag", "enc/handler.go:Handler.Marshal", "enc/map.go:unmarshalInto"]}
{"id": "C34", "title": "A struct field is set only from its own key", "statement": "Unmarshalling a map into a struct changes exactly the exported fields whose JSON name occurs in the map, leaves the others untouched, and reports every other key through UnhandledFields exactly once.", "quantifier": "every struct type, prior value and map", "why_tests_cant": "quantifies over all structs and documents", "anchors": ["enc/map.go:Map.unmarshalInto"]}
{"id": "C35", "title": "enc.Pipe is a reliable FIFO", "statement": "Under every interleaving of writers, readers and Close, the values read form a prefix of the values written in order, nothing is duplicated or lost before the reader sees end of stream, a reader sees end of stream only after Close and after all buffered values, and writing after Close fails without panic.", "quantifier": "every interleaving of Write, Read and Close", "why_tests_cant": "interleavings of channel operations", "anchors": ["enc/util.go:Pipe"]}
{"id": "C36", "title": "Duration text survives a round trip", "statement": "Marshalling an enc.Duration to JSON and reading it back gives the same duration for every 64-bit count of nanoseconds.", "quantifier": "every int64", "why_tests_cant": "2^64 values", "anchors": ["enc/time.go:Duration.MarshalJSON", "enc/time.go:Duration.UnmarshalJSON"]}
{"id": "C37", "title": "config.From fills each field from the environment, else its default, else fails", "statement": "For each configured field the value used is the environment variable if set (even empty), else the declared default, else From returns an error; fields without a config tag are unchanged; the first failing field determines the error and later fields keep their value.", "quantifier": "every struct of supported kinds, every environment and initial value", "why_tests_cant": "quantifies over all environments", "anchors": ["config/config.go:From", "config/config.go:unmarshalText"]}
{"id": "C38", "title": "config values parse exactly", "statement": "Booleans accept exactly the documented words in any case, integers exactly Atoi's syntax, strings verbatim, lists the comma separated items in order replacing the previous value, maps each k=v pair.", "quantifier": "every text", "why_tests_cant": "infinite set of texts", "anchors": ["config/config.go:unmarshalText"]}
{"id": "C39", "title": "An API server sees only declared inputs and returns only declared outputs", "statement": "The object given to the handler depends only on the request data under the names of its in fields, on the authenticated identity and on the registered initial object; the response contains exactly the out fields.", "quantifier": "every handler shape, initial object, request and operation", "why_tests_cant": "non-interference relates all pairs of requests", "anchors": ["api/handler.go:NewHandler", "api/handler.go:Server.Recv", "api/handler.go:Server.Send", "api/tag.go:parseTags"]}
{"id": "C40", "title": "Required and authenticated fields are enforced", "statement": "Server.Recv fails whenever a required in field is absent or zero, and whenever authentication is required and the request carries no identity; otherwise, the auth field holds the request's identity and cannot be chosen by the request data.", "quantifier": "every handler shape and request", "why_tests_cant": "quantifies over all requests", "anchors": ["api/handler.go:Server.Recv", "api/json.go:JSON.Auth"]}
{"id": "C41", "title": "A client call is a remote execution of the operation", "statement": "If client and server are built from the same object type, a call leaves in the client's object exactly the out fields computed by the operation run on the server's initial object with the client's in fields, and no other field changes.", "quantifier": "every object type, value and operation", "why_tests_cant": "end-to-end statement over all types", "anchors": ["api/handler.go:Client.Send", "api/handler.go:Client.Recv", "api/handler.go:Server.Recv", "api/handler.go:Server.Send"]}
{"id": "C42", "title": "Internal error details do not leak", "statement": "When a handler fails with a status of 500 or more, the response bytes do not depend on the error's message; with a lower status the body carries the message; the tracking id is always present.", "quantifier": "every handler result and error tree", "why_tests_cant": "non-interference over all errors", "anchors": ["http/server.go:handleRequest"]}
{"id": "C43", "title": "Exactly one status line per response", "statement": "However often a handler calls WriteHeader and Write, the underlying writer receives at most one WriteHeader from it, the first explicit code (or 200 if a body is written first), and the recorded metrics code is the one sent.", "quantifier": "every sequence of WriteHeader and Write calls", "why_tests_cant": "every call sequence", "anchors": ["http/mux.go:response"]}
{"id": "C44", "title": "Successful replies carry the body or 204", "statement": "A handler returning no error yields 200 with exactly the returned bytes after content decoding, or 204 when there are none; compression is applied only when the client offered it.", "quantifier": "every body and request header", "why_tests_cant": "every body length and header combination", "anchors": ["http/server.go:handleRequest", "http/call.go"]}
{"id": "C45", "title": "utils.ReadAll returns all the data", "statement": "If the context is not cancelled and the reader ends with io.EOF, ReadAll returns the concatenation of all bytes the reader delivered, for every reader that respects the io.Reader contract.", "quantifier": "every reader behaviour (chunk sizes, data with or without EOF) ", "why_tests_cant": "tests use bytes.Reader, which never returns data together with EOF", "anchors": ["utils/io.go:ReadAll"]}
{"id": "C46", "title": "WebSocket frames are handled in order, one at a time", "statement": "Under every schedule, the handler of a connection receives the incoming frames in arrival order, each exactly once, never two at a time, and none after a handler error or Close.", "quantifier": "every schedule of reader and loop goroutines", "why_tests_cant": "interleavings", "anchors": ["http/ws/conn.go:Conn.Loop", "http/ws/ws.go"]}
{"id": "C47", "title": "A WebSocket channel only reaches its own object", "statement": "A request frame on channel id x calls a method only on the object opened for x (the last one opened under x), and creating or calling on x never changes the object or methods of another channel; an unknown channel, path or type ends the connection with an error and calls nothing.", "quantifier": "every frame sequence and registered object set", "why_tests_cant": "every frame sequence", "anchors": ["http/ws/rpc.go:onFrame", "http/ws/channel.go:onData", "http/ws/handler.go:Register"]}
{"id": "C48", "title": "Closing a WebSocket channel leaves the others open", "statement": "A close frame for one channel removes that channel and no other.", "quantifier": "every frame sequence", "why_tests_cant": "needs several channels at once", "anchors": ["http/ws/channel.go", "http/ws/rpc.go:onFrame", "README.md"]}
{"id": "C49", "title": "Prometheus label sets never collide", "statement": "Two label value lists of the same metric map to the same time series only if they are equal, whatever characters the values contain.", "quantifier": "every pair of label value lists", "why_tests_cant": "collisions need special characters", "anchors": ["utils/prom/labels.go:stringify"]}
{"id": "C50", "title": "Histogram buckets are cumulative counts", "statement": "After any sequence of observations, each bucket holds the number of observations not above its bound, buckets are monotone when bounds are, the total count and sum match the observations, per label set, whatever the interleaving of observers.", "quantifier": "every observation sequence, bound list and interleaving", "why_tests_cant": "every sequence", "anchors": ["utils/prom/histogram.go:Histogram.Observe"]}
{"id": "C51", "title": "Printing metrics never panics", "statement": "Printing a histogram concurrently with observations never panics and shows a consistent snapshot of each series.", "quantifier": "every interleaving of Observe and Print", "why_tests_cant": "a short window between creating the series and its first observation", "anchors": ["utils/prom/histogram.go:Histogram.Print", "utils/prom/histogram.go:Histogram.Observe"]}
{"id": "C52", "title": "Counters and gauges add up", "statement": "Under every interleaving of atomic updates the value of each series equals the sum of the updates applied to its label set since the last Set, and series with other labels are unaffected.", "quantifier": "every interleaving", "why_tests_cant": "every interleaving of updates", "anchors": ["utils/prom/counter.go", "utils/prom/gauge.go"]}
{"id": "C53", "title": "sync.Mutex.TryLock is a safe timed lock", "statement": "Under every interleaving, at most one caller holds the mutex, TryLock returns true only if the caller now holds it, and if it returns false the abandoned attempt releases the mutex as soon as it gets it, so that the lock never stays held by nobody.", "quantifier": "every interleaving of any number of Lock, Unlock and TryLock callers", "why_tests_cant": "interleavings of the helper goroutine, the timer and other lockers", "anchors": ["utils/sync/mutex.go:Mutex.TryLock"]}
{"id": "C54", "title": "Typed sync.Map operations agree with the untyped map", "statement": "Every typed wrapper returns the stored value (zero value and false when absent), Range, RangeErr and Map visit each entry once and never panic whatever values were stored.", "quantifier": "every history and every value type", "why_tests_cant": "interface value types with nil values are the corner case", "anchors": ["utils/sync/map.go:Map"]}
{"id": "C55", "title": "BufferedRWC delivers appended bytes in order and Close wakes readers", "statement": "The bytes read are always a prefix of the bytes appended, in order and without loss for every read size; after Close every reader eventually returns.", "quantifier": "every interleaving and every buffer size", "why_tests_cant": "interleavings with blocked readers", "anchors": ["test/io.go:BufferedRWC"]}
{"id": "C56", "title": "test.Quote is unambiguous", "statement": "Two different strings never have the same quoted form, and the quoted form has no raw control character among tab, newline and carriage return.", "quantifier": "every pair of strings", "why_tests_cant": "infinite set of pairs", "anchors": ["test/util.go:Quote"]}
{"id": "C57", "title": "OpenAPI schema generation terminates", "statement": "SchemaFromType returns for every Go type, including mutually recursive ones.", "quantifier": "every type graph", "why_tests_cant": "every type graph", "anchors": ["api/openapi/schema.go:schemaFromType"]}
{"id": "C58", "title": "OpenAPI references resolve", "statement": "After a successful SchemaFromType, every $ref in the returned schema and in the service components names an existing component, and existing components are not changed.", "quantifier": "every type graph and every sequence of calls", "why_tests_cant": "every type graph", "anchors": ["api/openapi/schema.go:schemaFromType"]}
{"id": "C59", "title": "OpenAPI generation reports unsupported types as errors", "statement": "A type containing an unsupported kind (channel, function) yields an error, never a panic, and distinct struct types get distinct components.", "quantifier": "every type graph", "why_tests_cant": "every type graph", "anchors": ["api/openapi/schema.go:schemaFromType"]}
{"id": "C60", "title": "Node Find and AsMap agree", "statement": "Looking a key up in Pairs gives the same result directly and after conversion to a map.", "quantifier": "every pair list and key", "why_tests_cant": "duplicate keys are the corner case", "anchors": ["enc/pairs.go:Pairs.Find", "enc/pairs.go:Pairs.AsMap"]}
{"id": "C61", "title": "RequestCache.Invalidate is a barrier", "statement": "A Request for k that starts after Invalidate(k) never returns, as a HIT, the result of a fetch that had started before that Invalidate, even if such a fetch was in flight and finished later.", "quantifier": "every interleaving of requests, invalidations and fetches, every budget", "why_tests_cant": "needs a fetch to straddle the invalidation and later requests to race with it", "anchors": ["utils/caches/request.go:RequestCache.Request", "utils/caches/request.go:RequestCache.Invalidate"]}
{"id": "C62", "title": "A decoded JSON document is stable under re-encoding", "statement": "Whatever text JSON.Decode accepts, the resulting node can be encoded without panic, the encoding decodes to the same tree, and encoding that tree gives the same text again.", "quantifier": "for all byte strings accepted by Decode, with and without indentation", "why_tests_cant": "The accepted texts are unbounded: arbitrary nesting, escapes, surrogates, invalid UTF-8, number forms and duplicate keys; tests only sample them.", "anchors": ["enc/json.go:JSON.Decode", "enc/json.go:JSON.Encode", "enc/enc.go:fromNative"]}
{"id": "C63", "title": "JSON.Decode accepts only a complete document", "statement": "Decode returns an error when anything but white space follows the first JSON value of its input.", "quantifier": "for all byte strings", "why_tests_cant": "It is a claim about every possible remainder after every possible document.", "anchors": ["enc/json.go:JSON.Decode", "enc/json.go:UnmarshalJSON"]}
{"id": "C64", "title": "Tagging a context does not change its values", "statement": "For every context c, key k, tag name and tag value, WithTag(c, name, val).Value(k) equals c.Value(k).", "quantifier": "every context chain, tag and key", "why_tests_cant": "Quantifies over all keys, including those that collide with the tag's name.", "anchors": ["ctx/tags.go:WithTag", "ctx/tags.go:tagC.Value"]}
{"id": "C65", "title": "errors.Is on library errors does not panic", "statement": "For errors built by ctx.NewErrorf, ctx.WrapError, http.NewErrorf and fmt.Errorf around them, errors.Is(err, target) returns a boolean and never panics.", "quantifier": "every pair of built error trees", "why_tests_cant": "quantifies over all pairs of trees; the panic needs equal outer values holding uncomparable parts", "anchors": ["ctx/error.go:Error", "http/error.go:Error", "http/error.go:NewErrorf"]}
{"id": "C66", "title": "An error carries at most one stack per path", "statement": "However often an error is wrapped, formatted into others and joined, on every path from the outermost error down there is at most one ctx.Error, so one stack and one set of tags.", "quantifier": "every error built by the library", "why_tests_cant": "quantifies over all ways of building errors", "anchors": ["ctx/error.go:NewErrorf", "ctx/error.go:WrapError", "ctx/error.go:maybeWrap", "http/error.go:NewErrorf"]}
{"id": "C67", "title": "Logging leaves the caller's arguments alone", "statement": "Calling log.Infof and friends with a spread slice (args...) does not change the elements of the slice.", "quantifier": "every format and argument list", "why_tests_cant": "quantifies over all argument lists; the change is visible only through aliasing", "anchors": ["ctx/log/log.go:FormatMsg"]}
{"id": "C68", "title": "A redacted value attached as a tag stays hidden", "statement": "For any two log calls whose context differs only in the contents of a redacted value attached with ctx.WithTag, the rendered message and tags are the same.", "quantifier": "every context, tag name and redacted contents", "why_tests_cant": "non-interference relates all pairs of runs", "anchors": ["ctx/log/redacted.go", "ctx/tag.go:WithTag", "ctx/log/log.go:FormatMsg"]}
{"id": "C69", "title": "Hold, Release and Done never panic", "statement": "However Hold, HoldAndWait, their ReleaseFn (each called once) and Done interleave, no goroutine panics.", "quantifier": "every interleaving of Hold, Release and Done", "why_tests_cant": "the panic needs a Hold exactly while waiters are being woken", "anchors": ["shutdown/shutdown.go:hold", "shutdown/shutdown.go:holdAndWait", "shutdown/shutdown.go:done"]}
{"id": "C70", "title": "Releasing a hold again has no effect", "statement": "Calling a ReleaseFn a second time changes nothing: other holds stay outstanding and Done keeps waiting for them.", "quantifier": "every interleaving of Hold, repeated Release and Done", "why_tests_cant": "needs all combinations of other holds and waiters", "anchors": ["shutdown/shutdown.go:ReleaseFn", "shutdown/shutdown.go:hold"]}
{"id": "C71", "title": "HoldAndWait returns only once the shutdown has begun, and holds meanwhile", "statement": "HoldAndWait returns its ReleaseFn only after Started is closed, and its hold counts from the moment of the call, so Done does not close before.", "quantifier": "every interleaving of HoldAndWait, Begin, Release and Done", "why_tests_cant": "needs every interleaving of callers", "anchors": ["shutdown/shutdown.go:holdAndWait"]}
{"id": "C72", "title": "BufferedRWC never lets a reader sleep on available data", "statement": "Whenever a Read waits although appended data is available, some other waiting Read has been woken and is about to take it.", "quantifier": "every interleaving of any number of readers and appenders, every buffer size", "why_tests_cant": "lost wake-ups need particular interleavings of several readers", "anchors": ["test/io.go:BufferedRWC.Read", "test/io.go:BufferedRWC.Append"]}
{"id": "C73", "title": "BufferedRWC.Written is what was written", "statement": "At every moment the slices in Written hold, in order, exactly the bytes that were given to the successful calls of Write, and after a close nothing is added.", "quantifier": "every interleaving, including callers that use their slices again", "why_tests_cant": "needs aliasing of caller memory over time", "anchors": ["test/io.go:BufferedRWC.Write"]}
{"id": "C74", "title": "Unmarshal does not depend on map order", "statement": "Unmarshalling the same node gives the same outcome, whatever order Go ranges over the maps in it.", "quantifier": "every type, node and iteration order", "why_tests_cant": "the order changes from run to run, and only colliding keys show it", "anchors": ["enc/map.go:Map.unmarshalInto", "enc/pairs.go:Pairs.unmarshalInto"]}
{"id": "C75", "title": "Unmarshal never panics", "statement": "Unmarshalling any node into a variable of any type returns, with or without an error; it does not panic.", "quantifier": "every type, node and prior value", "why_tests_cant": "only particular combinations of node and type panic", "anchors": ["enc/handler.go:Handler.Unmarshal", "enc/time.go:Duration.unmarshalInto", "enc/util.go:parseTag"]}
{"id": "C76", "title": "Configurations read from the same initial value are independent", "statement": "config.From leaves what the caller holds unchanged: neither the initial value passed to it nor a configuration returned earlier reads differently afterwards.", "quantifier": "every initial value, including slices with spare capacity, and every sequence of calls", "why_tests_cant": "the sharing only shows with spare capacity and two results alive", "anchors": ["config/config.go:From", "config/config.go:unmarshalText"]}
{"id": "C77", "title": "No request makes Server.Recv panic", "statement": "Server.Recv answers every request that was decoded from JSON, with any identity, by an object or an error; it does not panic.", "quantifier": "every handler that NewHandler accepts, every request and identity", "why_tests_cant": "the requests are chosen by the other side and are unbounded", "anchors": ["api/handler.go:NewHandler", "api/handler.go:Server.Recv", "api/json.go:JSON.Unmarshal"]}
{"id": "C78", "title": "Only errors meant for the caller are shown to the caller", "statement": "When an operation fails because something it depends on failed, the caller gets an internal error (500) without details; a status below 500 and a message are sent only if the operation chose them for its caller.", "quantifier": "every error, handler, request and reply of another service", "why_tests_cant": "all error trees; the status comes from anywhere inside the tree", "anchors": ["http/error.go:ErrorCode", "http/server.go:handleRequest", "http/client.go:Do"]}
{"id": "C79", "title": "Requests that cannot be understood are answered with 4xx", "statement": "A request whose body cannot be read, is not a JSON object, or does not fit the fields of the operation is answered with a status from 400 to 499.", "quantifier": "every body and operation", "why_tests_cant": "every byte sequence as a body", "anchors": ["http/api.go:RegisterAPI", "api/json.go:ReadFrom", "http/server.go:handleRequest"]}
{"id": "C80", "title": "A call over HTTP succeeds exactly if the operation does", "statement": "Client.API returns nil exactly if the operation ran on the values sent and returned no error, and then the client's object has the values of the out fields it computed.", "quantifier": "every type, object, operation and error", "why_tests_cant": "all operations and errors, through JSON and the status line", "anchors": ["http/client.go:API", "http/api.go:RegisterAPI"]}
{"id": "C81", "title": "Every request is counted once", "statement": "For each request handled by the server the metric http_request is observed exactly once.", "quantifier": "every handler, registered in every way", "why_tests_cant": "all handlers, including those that panic", "anchors": ["http/server.go:NewServer", "http/mux.go:Handle"]}
{"id": "C82", "title": "An operation that requires an identity never runs without one over HTTP", "statement": "No request over HTTP, whatever its body, makes an operation run that has a required auth field: the reply does not depend on the operation.", "quantifier": "every type with such a field, every operation and request", "why_tests_cant": "non-interference over all operations and bodies", "anchors": ["http/api.go:RegisterAPI", "api/handler.go:Recv", "api/json.go:Auth"]}
{"id": "C83", "title": "/ready answers the code that was set last", "statement": "After SetReady(code), a request for /ready is answered with that code; /live is answered with 204 at all times.", "quantifier": "every code", "why_tests_cant": "every int", "anchors": ["http/server.go:SetReady", "http/server.go:NewServer"]}
{"id": "C84", "title": "A CallHandler accepts no body longer than MaxLength", "statement": "A request with more than MaxLength bytes is not passed to the handler, nor answered with success.", "quantifier": "every MaxLength, body and handler", "why_tests_cant": "every length", "anchors": ["http/call.go:Register"]}
{"id": "C85", "title": "No frame of a client stops the server", "statement": "Whatever frames a client sends over a websocket, the program goes on: at worst that connection ends.", "quantifier": "every sequence of frames and schedule", "why_tests_cant": "every kind of frame at every point of every interleaving", "anchors": ["http/ws/ws.go:Read", "http/ws/conn.go:Conn.Loop"]}
{"id": "C86", "title": "The client learns that a channel could not be opened", "statement": "If Init of a registered type fails, a frame tells the client about it; no method of the object can be called.", "quantifier": "every type, argument and sequence of frames", "why_tests_cant": "all Init methods and arguments", "anchors": ["http/ws/reflect.go:build", "http/ws/handler.go:Register"]}
{"id": "C87", "title": "Registered types can be opened, each time from the registered values", "statement": "Each type accepted by Register can be opened; the new object has, in every field, the value of the registered one.", "quantifier": "every struct type, registered value and time of opening", "why_tests_cant": "all types and values of fields, changed at any time", "anchors": ["http/ws/handler.go:Register", "http/ws/reflect.go:inspect", "http/ws/reflect.go:build"]}
{"id": "C88", "title": "Registered types and their methods are reachable", "statement": "After registering types in any order, a client can reach each of them, and each of its methods that takes a ws.C, under its name with the first letter in lower case, and nothing else.", "quantifier": "every list of types and names", "why_tests_cant": "all sets of names, including those that collide", "anchors": ["http/ws/handler.go:Register", "http/ws/reflect.go:inspect", "http/ws/reflect.go:toLowerFirst"]}
{"id": "C89", "title": "Each request over a channel is answered once, in order", "statement": "For each request that does not end the connection exactly one return frame is sent, with its channel and path; the return frames are in the order of the requests.", "quantifier": "every sequence of frames, types and methods", "why_tests_cant": "every frame sequence over several channels", "anchors": ["http/ws/reflect.go:build", "http/ws/channel.go:onData"]}
{"id": "C90", "title": "A method that fails leaves the connection open", "statement": "If a method returns an error, the client is told, and later frames are still handled.", "quantifier": "every method and error", "why_tests_cant": "all error trees", "anchors": ["http/ws/reflect.go:build", "http/ws/channel.go:onData"]}
{"id": "C91", "title": "Nothing is left running once Loop returned", "statement": "After Conn.Loop has returned, the goroutine it started ends.", "quantifier": "every schedule and sequence of frames", "why_tests_cant": "interleavings; a leak is not seen in a short test", "anchors": ["http/ws/conn.go:Conn.Loop"]}
{"id": "C92", "title": "JSON conforms to the documented schema", "statement": "What enc.Marshal makes of a value conforms to the schema that SchemaFromType makes of its type, with the components.", "quantifier": "every type graph, sequence of calls and value", "why_tests_cant": "all types with all of their values, after all calls before", "anchors": ["api/openapi/schema.go:schemaFromType", "enc/handler.go:Marshal"]}
{"id": "C93", "title": "The schema of a struct documents its JSON fields and no others", "statement": "The schema of a struct type, or the component it refers to, has a property for each field that can be in the JSON, and none for fields that are never sent, like private ones.", "quantifier": "every struct type in every type graph", "why_tests_cant": "all structs, tags and sequences of calls", "anchors": ["api/openapi/schema.go:schemaFromType"]}
{"id": "C94", "title": "The documentation of an operation is right", "statement": "UpdateOpenAPI lists exactly the in fields with those required, the out fields, and the authentication; requests of clients and responses of servers conform to it; conforming requests with all that is required are not refused.", "quantifier": "every handler type, object and request", "why_tests_cant": "all types, tags and values", "anchors": ["api/handler.go:UpdateOpenAPI", "api/handler.go:Send", "api/handler.go:Recv"]}
{"id": "C95", "title": "A time survives a JSON round trip", "statement": "A time.Time or enc.Time written with enc.MarshalJSON and read back with enc.UnmarshalJSON is the same instant, to the nanosecond, with the same offset from UTC.", "quantifier": "every time: all seconds, nanoseconds and offsets", "why_tests_cant": "all instants and zones: leap days, ends of centuries, all fractions", "anchors": ["enc/time.go:MarshalJSON", "enc/time.go:Parse", "enc/handler.go:unmarshal"]}
{"id": "C96", "title": "Texts of times mean what RFC 3339 says", "statement": "The text written for a time with a year from 0 to 9999 and an offset of whole minutes below a day is the RFC 3339 text of this time in the Gregorian calendar; an RFC 3339 text (capital letters, no leap second) is read as exactly the time that it means; null is read as the zero time.", "quantifier": "every time and every text", "why_tests_cant": "all texts, and all days of the calendar", "anchors": ["enc/time.go:String", "enc/time.go:Parse", "enc/handler.go:unmarshal"]}
{"id": "C97", "title": "Prometheus can read the metrics", "statement": "Whatever label values are observed, also those that clients choose such as the paths of requests, the text of prom.Handler is in the Prometheus text format, and a reader gets back each series with its label values, buckets and counts, and sums to six decimals.", "quantifier": "every set of metrics, every history of observations, every label value, every order of visiting", "why_tests_cant": "all label values and all interleavings of observations; the escapes of fmt and of the format differ", "anchors": ["utils/prom/http.go:Handler", "utils/prom/labels.go:stringify", "utils/prom/histogram.go:Print", "http/metrics.go:observe"]}
{"id": "C98", "title": "Every registered metric is shown once", "statement": "A name is registered once, by the first call; an answer of prom.Handler with status 200 has each registered metric exactly once and its samples do not mix with those of another metric.", "quantifier": "every history of Register calls, every order of visiting, every failing writer", "why_tests_cant": "all orders and all points at which writing or printing can fail", "anchors": ["utils/prom/metric.go:Register", "utils/prom/metric.go:Range", "utils/prom/http.go:Handler"]}
{"id": "C99", "title": "Descriptions and examples reach the document", "statement": "In the OpenAPI document a type or field has exactly the description of its doc tag; it has an example exactly if it has an example tag, and this example is a value of the documented type.", "quantifier": "every type (also recursive ones), every doc and example tag, every state of the components", "why_tests_cant": "all types and all texts of tags; the texts go through five parsers with a fallback each", "anchors": ["api/openapi/schema.go:schemaFromType", "api/openapi/schema.go:asBool", "api/openapi/schema.go:asInt", "api/openapi/schema.go:asFloat", "api/openapi/schema.go:asList", "api/openapi/schema.go:asMap", "api/openapi/schema.go:asNode"]}
{"id": "C100", "title": "Messages arrive whole, once and in order", "statement": "When several goroutines write to a websocket, and one of them closes it, the client reads exactly the messages for which Write returned nil, each whole and once, in the order in which the Writes returned, and no others.", "quantifier": "every number of goroutines, every schedule, every message, every point at which the connection breaks", "why_tests_cant": "all interleavings of the calls of the buffer, and all lengths and break points", "anchors": ["http/ws/ws.go:Write", "http/ws/ws.go:write", "http/ws/ws.go:Close", "http/ws/conn.go:Send"]}
{"id": "C101", "title": "The handler gets the messages of the client", "statement": "OnData is called with the JSON of exactly the messages that the client sent (up to some point), whatever frames they are sent in and whenever the connection ends.", "quantifier": "every sequence of messages, masks, lengths and fragmentations, every point at which the connection ends", "why_tests_cant": "all frames and all points at which the stream can be cut", "anchors": ["http/ws/ws.go:Read", "http/ws/ws.go:read", "http/ws/conn.go:Loop"]}
{"id": "C102", "title": "JSON.Decode reads the JSON of RFC 8259", "statement": "enc.JSON.Decode reads a text if and only if it is a JSON text of RFC 8259, and gives the node that the text stands for: numbers as written, strings with their escapes resolved (a lone surrogate or an undecodable byte is U+FFFD), arrays in order, objects with the last member of each name. Any other text is refused.", "quantifier": "every byte string", "why_tests_cant": "the grammar is recursive and strings have infinitely many spellings; tests try a few texts", "anchors": ["enc/json.go:Decode", "enc/json.go:fromNative"]}
{"id": "C103", "title": "EqualsJSON compares what JSON says", "statement": "test.EqualsJSON passes, and NotEqualsJSON fails, if and only if the two given things say the same JSON: spelling, blanks and the order of members do not count, numbers are compared by value; a string, []byte or RawMessage holding JSON is taken as that JSON, any other value as the JSON it marshals to. In particular a value equals its own JSON text.", "quantifier": "every pair of JSON texts and of Go values", "why_tests_cant": "infinitely many spellings of the same JSON, and all numbers; the helper is itself what tests trust", "anchors": ["test/equals.go:EqualsJSON", "test/equals.go:NotEqualsJSON", "test/equals.go:equalJSON", "test/util.go:jsonish", "enc/pairs.go:MarshalJSON"]}
{"id": "C104", "title": "A bad message leaves the other channels usable", "statement": "Messages of a client over a websocket are taken as frames exactly if they are objects whose channel, path and type are texts; the connection is in the state after those frames, in the order sent. A message that is no frame, or names an unknown channel, path or method, affects nothing else: later messages are still handled.", "quantifier": "every registry, every sequence of messages, every schedule", "why_tests_cant": "all messages and interleavings", "anchors": ["http/ws/rpc.go:newRpcConn", "http/ws/rpc.go:onFrame", "http/ws/conn.go:Loop"]}
{"id": "C105", "title": "Assertions pass exactly when what they assert holds", "statement": "An assertion of the package test lets the test go on if its claim holds and fails it, with a line in the log, if not: Assert for conditions, EqualsStr and NotEqualsStr for texts, Contains and NotContains for substrings, Shift and Pop for lists that are not empty (taking the first or last element). This depends on the claim only, not on how the call is written.", "quantifier": "every call site (source file, line, arguments), all values", "why_tests_cant": "all ways to write the call", "anchors": ["test/assert.go:Assert", "test/equals.go:EqualsStr", "test/equals.go:NotEqualsStr", "test/strings.go:Contains", "test/list.go:Shift", "test/list.go:Pop", "test/util.go:argument", "utils/ast/call_args.go:Assignment"]}
{"id": "C106", "title": "A logged assertion shows what the argument was assigned", "statement": "The text that an assertion logs for an argument is, up to the end of its first line, the right side of the last assignment to that variable before the call, or the argument as written if there is none (for a function literal: its body); without the source, file and line.", "quantifier": "every source file and call in it", "why_tests_cant": "all programs around the call", "anchors": ["utils/ast/call_args.go:Caller", "utils/ast/call_args.go:Visit", "utils/ast/call_args.go:Assignment", "utils/ast/call_args.go:Short"]}
{"id": "C107", "title": "Nil, Empty and Error tell nil, empty and erroneous values from others", "statement": "Nil passes and NotNil fails exactly for nil and for nil pointers, slices, maps, channels and functions; NoError passes exactly for errors that are nil and Error exactly for others; Empty passes and NotEmpty fails exactly for nil and empty pointers, strings, slices, maps, channels and structs that have only zero values, and both work for every value.", "quantifier": "all types and values, every call site", "why_tests_cant": "all types and values", "anchors": ["test/nil.go:isNil", "test/nil.go:Nil", "test/nil.go:NotNil", "test/empty.go:empty", "test/empty.go:Empty", "test/empty.go:NotEmpty", "test/errors.go:NoError", "test/errors.go:Error"]}
{"id": "C108", "title": "EqualsGo passes exactly for equal values", "statement": "EqualsGo passes and NotEqualsGo fails exactly for values of the same type and with the same contents: numbers, texts, slices and arrays element by element, structs field by field, maps with the same entries in any order, pointers with the same contents.", "quantifier": "all types and values, every call site", "why_tests_cant": "all types and values", "anchors": ["test/equals.go:EqualsGo", "test/equals.go:NotEqualsGo", "test/equals.go:equalGo"]}
{"id": "C109", "title": "Listen returns when the server accepts connections", "statement": "A call of Server.Listen for an address that can be listened to always returns; when it has returned, clients can connect to the address it gave and are served until the shutdown begins.", "quantifier": "any number of servers, all schedules of their goroutines, of net/http and of the users of shutdown", "why_tests_cant": "depends on the order of steps of several goroutines", "anchors": ["http/server.go:Listen", "http/server.go:Accept", "shutdown/shutdown.go:hold"]}
{"id": "C110", "title": "A shutdown closes servers and lets their requests finish", "statement": "When a channel that shutdown.Done gave after Listen returned is closed, and so when WaitForSignal returns, the shutdown has begun, the server is closed for new connections, and every request that was in progress has been answered.", "quantifier": "any number of servers and connections, all schedules of their goroutines, of net/http and of the users of shutdown", "why_tests_cant": "depends on the order of steps of several goroutines", "anchors": ["http/server.go:Listen", "shutdown/shutdown.go:hold", "shutdown/shutdown.go:done", "shutdown/shutdown.go:waitForSignal"]}
{"id": "C111", "title": "A client reads the frames that the server sends", "statement": "The text of a frame that is sent over a websocket is a JSON object from which a client gets back the channel, the path, the type and the data of that frame, whatever they are, as long as texts are UTF-8 and data has a JSON form.", "quantifier": "all frames, with data of any depth that JSON readers of this package take", "why_tests_cant": "all texts and all data", "anchors": ["http/ws/conn.go:Send", "http/ws/channel.go:Frame", "http/ws/ws.go:Write", "enc/handler.go:marshal"]}
{"id": "C112", "title": "A call of the test client returns the result of its own request", "statement": "A call made with the function that TestClient.Open returns ends, and returns nil if the method that was called returned nil, and the error of that method otherwise, whatever other channels and earlier calls do.", "quantifier": "any registered objects, any number of channels and calls, all schedules of the goroutines of client and server", "why_tests_cant": "depends on the order of steps of several goroutines and on earlier calls", "anchors": ["http/ws/test.go:Open", "http/ws/test.go:Write", "http/ws/test.go:Read", "http/ws/conn.go:Loop"]}
{"id": "C113", "title": "A float survives marshalling", "statement": "A float64 or float32 that is marshalled, as a value or in a field, written as JSON, read and unmarshalled into the same type, is the same float, in sign and value; also the largest and the smallest ones.", "quantifier": "all finite floats of both sizes, both forms in which JSON writes numbers", "why_tests_cant": "more than 2^64 floats, and rounding at either end", "anchors": ["enc/numeric.go:Float", "enc/numeric.go:unmarshalNumericInto", "enc/handler.go:marshal"]}
{"id": "C114", "title": "A number is read as the nearest float", "statement": "Unmarshalling a number, from JSON or from an integer, into a float64 or a float32 gives the float that is equal to it, or, if there is none, the nearest one (the even one of two), and an error if the number is too big.", "quantifier": "all decimal numbers with exponents below 100000, all int64", "why_tests_cant": "infinitely many texts; ties and limits are rare", "anchors": ["enc/numeric.go:Float64", "enc/numeric.go:unmarshalNumericInto"]}
{"id": "C115", "title": "Unmarshalling into an interface is like encoding/json", "statement": "What is decoded from JSON and unmarshalled into an interface variable is what encoding/json puts into one (nil, bool, float64, string, slices and maps of these), or an error where encoding/json fails; and a value that was marshalled gives the same with JSON in between and without.", "quantifier": "all texts, values of any depth", "why_tests_cant": "all texts", "anchors": ["enc/numeric.go:native", "enc/list.go:native", "enc/map.go:native", "enc/pairs.go:native"]}
{"id": "C116", "title": "A call of http.Client that has returned occupies no connection", "statement": "Once Client.Get, Post or API has returned, whatever the server answered, the connection of its request has been given back, so that failing calls do not use up the connections of the program.", "quantifier": "all answers, numbers of concurrent calls, interleavings and limits of connections", "why_tests_cant": "a test does not see connections that are left open, and it takes many failures until calls fail", "anchors": ["http/client.go:Get", "http/client.go:Post", "http/client.go:Do", "http/client.go:API"]}
{"id": "C117", "title": "What a call of http.Client returns", "statement": "Get and Post return the whole content of a 200 or 204 answer, and nothing but it; any other status is returned as an Error with this status; a call without an answer, with an answer that broke off, or (API) with content that it cannot use returns an error. A call that has its answer can return.", "quantifier": "all answers, cancellations at any moment, concurrent calls", "why_tests_cant": "answers that break off and cancellations in between depend on timing", "anchors": ["http/client.go:Get", "http/client.go:Post", "http/client.go:Do", "http/client.go:API"]}
{"id": "C118", "title": "Values can be decoded by several goroutines at once", "statement": "Any number of goroutines can call enc.Unmarshal at the same time, each for variables of its own, as the servers of http and ws do for their requests: the program goes on, and each type that is decoded through JSON is warned about once.", "quantifier": "all types, numbers of goroutines and interleavings", "why_tests_cant": "the window is a write of a map that happens once per type, so tests hardly ever hit it", "anchors": ["enc/handler.go:warnIneff", "enc/handler.go:unmarshal"]}
{"id": "C119", "title": "Requests share only what the registered object refers to", "statement": "Each request works on an object of its own: its fields are those of the registered object, or zero, and no other request can get at it or at anything the request allocates. What two requests can both get at is only what the registered object refers to, or what a request itself wrote there; nothing else that a request can get at is changed by others. If the registered object holds no references, requests share nothing.", "quantifier": "all objects, memories, and interleavings of any number of requests that allocate and write memory in any way", "why_tests_cant": "tests run one request, or a few whose fields hold plain values; sharing shows only for some shapes of memory and some orders", "anchors": ["api/handler.go:NewHandler", "api/handler.go:Server.Recv", "api/README.md"]}
{"id": "C120", "title": "A documented path is served by the operation documented there", "statement": "Whatever has been registered on a Server and in whatever order, a request for a path of Server.OpenAPI gets to the operation that was registered when that path was documented. Any other request gets to the longest registered pattern for its path, and no client that follows a redirect of the server is redirected again.", "quantifier": "all histories of registrations, hosts and paths", "why_tests_cant": "tests register a few well-formed paths; which pattern wins depends on all the others, and on what net/http makes of a path first", "anchors": ["http/api.go:Server.RegisterAPI", "http/server.go:Server.HandleRequest", "http/mux.go:Server.Handle", "http/server.go:NewServer"]}
{"id": "C121", "title": "/live, /ready and /openapi.json always answer", "statement": "Whatever else is registered on a Server, requests for /live, /ready and /openapi.json get to the handlers that NewServer made for them.", "quantifier": "all histories of registrations, successful or not, and all hosts", "why_tests_cant": "tests look at the three paths on a server with a few others; a pattern such as / or one for a host might take them", "anchors": ["http/server.go:NewServer", "http/mux.go:Server.Handle"]}
{"id": "C122", "title": "RegisterAPI registers and documents all paths of an operation or none", "statement": "When RegisterAPI succeeds, all urls of the operation are served by it and documented in Server.OpenAPI; when it returns an error or panics, the server is as before. It panics when a path is empty or taken, and only then. Nothing that is served or documented is lost or replaced by later calls.", "quantifier": "all servers reachable by any history of calls, and all operations", "why_tests_cant": "tests register an operation once; what is left of a call that fails half way depends on what came before", "anchors": ["http/api.go:Server.RegisterAPI", "api/handler.go:Server.UpdateOpenAPI"]}
{"id": "C123", "title": "UnhandledFields is told once of every unknown field, and where it is", "statement": "While Unmarshal succeeds with Handler.UnhandledFields set, the function is called exactly once for every field of the input, at any depth, that the Go type has no field for; it gets the value of the field and a path that no other field of the input has, and it may keep that path.", "quantifier": "all types, nodes, functions, growth of slices", "why_tests_cant": "the paths share arrays that append overwrites or not depending on depth; tests print the path at once, one level deep", "anchors": ["enc/map.go:Map.unmarshalInto", "enc/handler.go:Handler.Append", "enc/handler.go:Handler.UnhandledFields"]}
{"id": "C124", "title": "A type with MarshalNode or MarshalJSON is written by it wherever it occurs", "statement": "Marshal writes every value of a type that declares MarshalNode (else MarshalJSON) with that method, whether the value is given itself, or is a field, an element, an entry of a map, or behind a pointer.", "quantifier": "all types, values and methods", "why_tests_cant": "whether a method is found depends on its receiver and on how each value is stored; tests marshal pointers or values, one level deep", "anchors": ["enc/handler.go:Handler.Marshal", "utils/sync/map.go:Map.MarshalNode"]}
{"id": "C125", "title": "Marshal does not panic", "statement": "Marshal of a value whose struct tags are well-formed and whose methods do not panic returns a node or an error.", "quantifier": "all types, values and methods", "why_tests_cant": "only nil pointers to some types panic, and null in a request puts them there", "anchors": ["enc/handler.go:Handler.Marshal", "enc/time.go:Duration.MarshalJSON"]}
{"id": "C126", "title": "Values with methods survive a round trip", "statement": "If the methods that read the declared types in a value are inverse to those that write them, Unmarshal into a zero value gives back what Marshal was given, and Unmarshal into another value replaces what it holds.", "quantifier": "all types, values and methods", "why_tests_cant": "holds for each type on its own; whether both methods are found depends on where values are stored", "anchors": ["enc/handler.go:Handler.Unmarshal", "enc/handler.go:Handler.Marshal", "utils/sync/map.go:Map.UnmarshalNode"]}
{"id": "C127", "title": "The line of a log call says what was logged", "statement": "A log call to the default logger at or above its minimum level writes one line of JSON from which the level, the message, the source and every tag of the context (with its own name and value) can be read back; a call below it writes nothing.", "quantifier": "all messages, sources, levels, contexts with any tags, arguments", "why_tests_cant": "tests decode a few lines with harmless names; names of tags meet those that the handler itself uses", "anchors": ["ctx/log/log.go:NewDefaultSlogLogger", "ctx/log/log.go:wrapSlogLogger", "ctx/log/log.go:Tags.AsList"]}
{"id": "C128", "title": "The level set with SetDefaultLoggerLevel stays until it is set again", "statement": "After SetDefaultLoggerLevel(l) a call to a default logger is written exactly if its level is at least l, until SetDefaultLoggerLevel is called again.", "quantifier": "all sequences of calls", "why_tests_cant": "the level is shared by all default loggers; tests set it and log at once", "anchors": ["ctx/log/log.go:SetDefaultLoggerLevel", "ctx/log/log.go:NewDefaultSlogLogger"]}
{"id": "C129", "title": "Internal errors do not reach websocket clients", "statement": "As over HTTP, what a websocket client gets does not depend on an error that a method returns, unless it is one with a status below 500.", "quantifier": "all registered types and methods, frames and errors", "why_tests_cant": "every path from an error to a frame counts; tests look at one error frame", "anchors": ["http/ws/reflect.go:builder.build", "http/ws/channel.go:Channel.onData"]}
{"id": "C130", "title": "AbsFile finds the files of the module and leaves others alone", "statement": "In a program built with -trimpath, AbsFile of a frame in the main module is the file in the directory of its go.mod; of any other frame, or a file that exists under its name, it is the name unchanged.", "quantifier": "all working directories, texts of go.mod, files", "why_tests_cant": "depends on how go.mod is written and which other modules there are; tests run in this module", "anchors": ["utils/stack.go:StackFrame.AbsFile", "utils/stack.go:mod"]}
{"id": "C131", "title": "FuncName and ShortFunc give the name of the function", "statement": "FuncName of a frame is the name of its function or method without package, receiver and type arguments; ShortFunc has the package in front.", "quantifier": "all names that the runtime gives", "why_tests_cant": "tests have one function", "anchors": ["utils/stack.go:StackFrame.FuncName", "utils/stack.go:StackFrame.ShortFunc"]}
{"id": "C132", "title": "Marshal returns for every value", "statement": "Marshal returns a node or an error for every Go value, also one that reaches itself through pointers, slices or maps, as encoding/json does; values that share parts are not taken for such.", "quantifier": "all values and all memories", "why_tests_cant": "values that refer to themselves are not in the tests; how deep calls may nest is not bounded", "anchors": ["enc/handler.go:Handler.Marshal"]}
{"id": "C133", "title": "The Duration of a number is the number times the unit", "statement": "Duration(unit) of an Integer, Float or Digits is the number times the unit, cut to whole nanoseconds; it does not panic, and gives no other duration if that does not fit.", "quantifier": "all numbers and units", "why_tests_cant": "rounding and overflow show only for some of the numbers; tests have three", "anchors": ["enc/numeric.go:Integer.Duration", "enc/numeric.go:Float.Duration", "enc/numeric.go:Digits.Duration"]}
{"id": "C134", "title": "A shutdown ends the websocket connections", "statement": "Each websocket connection holds the shutdown from the start to the end of its handler, and once the shutdown has begun every connection ends by itself, so that the channel of Done closes.", "quantifier": "all schedules of any number of connections, their clients, and other users of the package shutdown", "why_tests_cant": "it is about all interleavings of the goroutines of the connections, and about what never happens", "anchors": ["http/ws/handler.go:Handler.Server", "http/ws/handler.go:RpcHandler.Server", "http/ws/conn.go:Conn.Loop", "shutdown/shutdown.go:Hold", "http/server.go:Server.Listen"]}
{"id": "C135", "title": "A test with TestAPI says what a call over HTTP does", "statement": "http.TestAPI and api.Test with an object succeed, and leave the same values in it, exactly if http.Client.API with that object does against a server where the type is registered.", "quantifier": "every type, object, operation and identity", "why_tests_cant": "a test of an operation only shows what TestAPI does; that it predicts the calls over HTTP is about all types and values", "anchors": ["http/test.go:TestAPI", "api/test.go:Test", "http/client.go:Client.API", "http/api.go:RegisterAPI"]}
{"id": "C136", "title": "A client finds the operation it calls", "statement": "http.Client.API with an object whose type is registered on a server with RegisterAPI, and with the address of that server as BaseUrl, sends its request to that server and to a path that is served by that registration; it never panics.", "quantifier": "every history of registrations, url of the object and BaseUrl", "why_tests_cant": "a test calls a few operations with plain paths at an address without a path; that the request and the mux agree is about all urls, escapes, prefixes and registrations", "anchors": ["http/client.go:Client.API", "api/handler.go:Handler.URL", "http/api.go:RegisterAPI", "http/server.go:Server.Handle"]}
{"id": "C137", "title": "Handler.Factory makes the values of its types", "statement": "With a function for a type in Handler.Factory, Unmarshal stores what that function makes of the node in every variable, field, element or entry of that type, and returns an error if the function does; types without a function are read as ever.", "quantifier": "every factory, type, node and variable", "why_tests_cant": "a test needs one type and node for which it works; the code was never called with a factory that succeeds; that it cannot work is about all types and values", "anchors": ["enc/handler.go:Handler.Factory", "enc/handler.go:Handler.unmarshal"]}
{"id": "C138", "title": "lists.Sort sorts", "statement": "lists.Sort and lists.SortFunc return for every slice and every less or score: afterwards the slice has the same elements, in the order of less (or of the scores), and elements that are not less than each other keep their order.", "quantifier": "every slice, every less function, every score function and every choice of the random numbers of the sort", "why_tests_cant": "tests sort a few short slices, for which sort.Slice is an insertion sort; pivots, heap sort, broken patterns and inconsistent less functions need long or special slices", "anchors": ["utils/lists/sort.go:Sort", "utils/lists/sort.go:SortFunc"]}
{"id": "C139", "title": "By default websocket connections are accepted from the same origin", "statement": "The server that Handler.Server and RpcHandler.Server return accepts the opening handshakes of RFC 6455 of pages of its own origin and of clients that are not browsers, and refuses those of pages of other origins and what is no handshake.", "quantifier": "every request", "why_tests_cant": "tests open connections with one client library and one Origin; whom else the server lets in is about all headers", "anchors": ["http/ws/handler.go:Handler.Server", "http/ws/handler.go:RpcHandler.Server", "http/ws/README.md"]}
{"id": "C140", "title": "MetricsMutex is a mutex and logs what happened", "statement": "At most one goroutine is between a Lock and the following Unlock of a MetricsMutex; nobody waits for it while it is free; the lines it logs name the caller of Lock, a wait that is no longer than that of the call, and a time for which the lock was held that is at least the one between Lock and Unlock and, with the wait, at most the time of both calls and what is between.", "quantifier": "every number of goroutines, every interleaving and every passing of time", "why_tests_cant": "mutual exclusion, and that fields written by one goroutine are not logged by another, are about all interleavings", "anchors": ["utils/sync/mutex.go:MetricsMutex.Lock", "utils/sync/mutex.go:MetricsMutex.Unlock"]}
{"id": "C141", "title": "A typed sync.Map can be used by several goroutines", "statement": "Map and MarshalNode of utils/sync.Map return what the map was at some moment of the call; goroutines that call LoadOrStore or GetOrStore for a key get the same value, and one of them stores its own; a value is found by at most one LoadAndDelete.", "quantifier": "every number of goroutines, operations, keys and values, every interleaving", "why_tests_cant": "about all interleavings of the operations with the loads of a Map call", "anchors": ["utils/sync/map.go:Map.Map", "utils/sync/map.go:Map.MarshalNode", "utils/sync/map.go:Map.LoadOrStore", "utils/sync/map.go:Map.GetOrStore", "utils/sync/map.go:Map.LoadAndDelete"]}
{"id": "C142", "title": "Operations may be registered while the server is in use", "statement": "Handle, HandleRequest and RegisterAPI may be called by any goroutine at any time. The document that GET /openapi.json answers has the paths of all registrations that have returned, and only registered ones; requests for a documented path, and for one whose registration has returned, get to its operation.", "quantifier": "every number of goroutines, registrations and requests, every interleaving", "why_tests_cant": "about all interleavings; the runtime finds the collision only now and then", "anchors": ["http/mux.go:Server.Handle", "http/server.go:Server.HandleRequest", "http/server.go:NewServer", "http/api.go:RegisterAPI", "api/handler.go:Handler.UpdateOpenAPI"]}
{"id": "C143", "title": "Caches and stores can be used by several goroutines", "statement": "Whatever goroutines call Get and Invalidate of a Mem or LRU cache, or Get, Upsert and Delete of a KeyValue store, the answers are those of the calls made one after the other, in an order in which a call that returned before another was made comes first; Gets of a key of a Mem cache at the same time load it once and give the same value. No call waits for ever, a loader may use the cache, and a load delays only calls that need it.", "quantifier": "every number of goroutines and calls, every loader, every interleaving", "why_tests_cant": "about all interleavings and about calls that never return", "anchors": ["utils/caches/mem.go:memCache.Get", "utils/caches/mem.go:memCache.Invalidate", "utils/caches/lru.go:LRU.Get", "utils/caches/lru.go:LRU.Invalidate", "storage/keyvalue.go:memKeyValue.Get", "storage/keyvalue.go:memKeyValue.Upsert", "storage/keyvalue.go:memKeyValue.Delete"]}
{"id": "C144", "title": "lists.Set can be used by several goroutines", "statement": "Whatever goroutines call Add, Remove and Has of a Set, for each element the Adds and Removes that return true take turns, beginning with an Add, and Has answers what the last of them says; so an element that many add and nobody removes is new to exactly one of them. All lists the elements of the set at one moment of the call.", "quantifier": "every number of goroutines and calls, every element, every interleaving", "why_tests_cant": "about all interleavings; tests with goroutines see a few", "anchors": ["utils/lists/set.go:Set.Add", "utils/lists/set.go:Set.Remove", "utils/lists/set.go:Set.Has", "utils/lists/set.go:Set.All"]}
{"id": "C145", "title": "Reading the metrics does not hold up requests", "statement": "A request is answered whatever clients that read /metrics do: how fast they read, whether they stop reading, and how many there are.", "quantifier": "every number of requests and readers of the metrics, every interleaving, readers that stop at any line", "why_tests_cant": "tests read the metrics to the end; needs a client that stops reading in the middle", "anchors": ["utils/prom/histogram.go:histogramTS.print", "utils/prom/histogram.go:histogramTS.observe", "utils/prom/http.go:Handler", "http/mux.go:Server.Handle", "http/server.go:NewServer"]}
{"id": "C146", "title": "The number of metric series does not depend on what clients ask for", "statement": "How many series the histogram http_request holds is bounded by what the program registers on the server, whatever requests clients send.", "quantifier": "every routing, every handler, every list of requests", "why_tests_cant": "tests look at the series of a few known paths; the growth needs arbitrarily many requests", "anchors": ["http/server.go:NewServer", "http/mux.go:Server.Handle", "http/metrics.go:metric", "utils/prom/histogram.go:Histogram.Observe"]}
{"id": "C147", "title": "What was set in the example store is got back", "statement": "After /api/v1/set with a key and a value, /api/v1/get with that key returns a value that says the same in JSON, until the key is set again; set returns what was there before.", "quantifier": "every JSON value, every sequence of calls on any keys, every store", "why_tests_cant": "needs all JSON values and all histories; tests set a few values", "anchors": ["example/example.go:Get.Do", "example/example.go:Set.Do", "enc/handler.go:Handler.Marshal", "enc/list.go:List.native", "enc/map.go:Map.native", "enc/numeric.go:Digits.native", "enc/json.go:JSON.Decode"]}
{"id": "C148", "title": "The example store can be used by several clients", "statement": "Requests of several clients to /api/v1/get and /api/v1/set at the same time return what they would return in some order, one after the other.", "quantifier": "every number of requests, every interleaving", "why_tests_cant": "tests make one request at a time; needs particular interleavings", "anchors": ["example/example.go:Store", "example/example.go:Get.Do", "example/example.go:Set.Do"]}
{"id": "C149", "title": "AsTime and AsDuration return what the text says", "statement": "String.AsTime of an RFC 3339 text returns that time and no error, String.AsDuration of a printed duration returns that duration and no error; there is an error exactly when MustTime or MustDuration panics, and then the value is zero.", "quantifier": "every text, every time, every duration, every order of evaluation the language allows", "why_tests_cant": "a test sees the order that one compiler chooses; needs all texts", "anchors": ["enc/scalar.go:String.AsTime", "enc/scalar.go:String.MustTime", "enc/scalar.go:String.AsDuration", "enc/scalar.go:String.MustDuration", "enc/time.go:Time.Parse", "enc/time.go:Duration.Parse"]}
{"id": "C150", "title": "ctx.JSON marshals and unmarshals like json.RawMessage", "statement": "A ctx.JSON holds the JSON it was unmarshaled from, whatever becomes of the text it was read from, and is marshaled as a json.RawMessage with the same bytes is.", "quantifier": "every text, every part of it, every later write, every sequence of documents on a stream", "why_tests_cant": "tests look at the value at once and do not use the text again; needs all later writes", "anchors": ["ctx/error.go:JSON.MarshalJSON", "ctx/error.go:JSON.UnmarshalJSON", "enc/handler.go:Handler.Unmarshal"]}
{"id": "C151", "title": "Stacks and sources point to the code of the caller", "statement": "The source of a log line is the file and line of the log call; the stack of an error starts at the file and line of the call that made the error and goes on with its callers; utils.Stack and utils.Caller skip as many calls as they are told.", "quantifier": "every call stack, every place of a call, every number of lines to skip", "why_tests_cant": "tests call from one place with one depth; needs all call stacks", "anchors": ["ctx/error.go:NewErrorf", "ctx/error.go:WrapError", "ctx/error.go:stack", "http/error.go:NewErrorf", "ctx/log/log.go:caller", "utils/stack.go:Stack", "utils/stack.go:Caller", "http/mux.go:WriteHeader", "utils/sync/mutex.go:Lock"]}
{"id": "C152", "title": "The context of a test knows the test and ends with it", "statement": "The context of test.Context has the name and the deadline of the test, is not cancelled before the test is over and is cancelled then, with all contexts made from it; the test that was attached last to a context is the one that ExtractTester finds.", "quantifier": "every history of contexts made and cancelled, every test", "why_tests_cant": "needs all histories of contexts and the end of the test itself", "anchors": ["test/ctx.go:Context", "test/ctx.go:WithTester", "test/ctx.go:ExtractTester", "test/equals.go:EqualsJSON", "test/strings.go:ContainsJSON"]}
{"id": "C153", "title": "maps.Pairs lists a map", "statement": "Pairs of a map has each entry of the map once; Keys and Values have the key and the value of each pair at the place of the pair.", "quantifier": "every map, every order in which Go may visit it", "why_tests_cant": "needs all maps and orders of iteration; Go chooses the order at random", "anchors": ["utils/maps/maps.go:Pairs", "utils/maps/maps.go:Keys", "utils/maps/maps.go:Values"]}
{"id": "C154", "title": "A websocket client that does not read holds up nobody", "statement": "Conn.Send and Conn.Close return, at the latest when their context is done, also when the client does not read; a client that reads is sent its messages whatever other clients do.", "quantifier": "every number of connections and goroutines, every sequence of sends and closes, every schedule, every capacity of the way to the client", "why_tests_cant": "needs a client that stops reading and more data than the system buffers; tests read everything", "anchors": ["http/ws/conn.go:Conn.Send", "http/ws/conn.go:Conn.Close", "http/ws/ws.go:wsImpl.Write", "http/ws/ws.go:wsImpl.Close"]}
{"id": "C155", "title": "A CallHandler waits ReadTimeout for the body and takes MaxLength bytes", "statement": "A CallHandler's Handler is called when the whole body has arrived within ReadTimeout (30 s by default) and is no longer than MaxLength; otherwise the request is answered with 400 without calling it. The time Handler itself takes is not limited by ReadTimeout.", "quantifier": "every ReadTimeout and MaxLength, every body and way of sending it, every schedule of the goroutines, every moment at which time passes or a connection breaks", "why_tests_cant": "needs slow clients, long waits and all interleavings of timer, reader and request", "anchors": ["http/call.go:CallHandler.Register", "http/call.go:CallHandler.readTimeout", "utils/io.go:ReadAll", "http/server.go:Server.Listen"]}
{"id": "C156", "title": "The error of Unmarshal tells which part of the data is wrong", "statement": "When enc.Unmarshal returns an error of its own, the message names the place in the data that cannot be read as the Go type there, and it names no other place; data that are wrong at different places give different messages.", "quantifier": "every Go type of the model, every node, every value to begin with, every UnhandledFields", "why_tests_cant": "needs all shapes of types and data; tests look at few messages", "anchors": ["enc/handler.go:Handler.Unmarshal", "enc/enc.go:path.String", "enc/map.go:Map.unmarshalInto", "enc/list.go:List.unmarshalInto", "enc/numeric.go:unmarshalNumericInto", "enc/scalar.go:String.unmarshalInto"]}
{"id": "C157", "title": "Every request has a context of its own", "statement": "The context that the handler of an HTTP request gets carries the tags of the context given to Listen and the address, remote address, user agent and path of this very request; it has a tracking id of its own, which error replies show; it ends with the request, its connection or the context given to Listen, and for no other reason, in particular not with another request.", "quantifier": "every history of Listen, connections, requests and operations on contexts, every address, user agent and path", "why_tests_cant": "needs all interleavings of requests, connections and cancellations; a test sends few requests and looks at one", "anchors": ["http/server.go:NewServer", "http/server.go:Server.Listen", "http/server.go:handleRequest", "http/mux.go:Handle", "ctx/tags.go:WithTag", "ctx/span.go:GetTracking"]}
{"id": "C158", "title": "Every websocket connection has a session of its own", "statement": "The context of a websocket connection carries the tags of its request, a tracking id that no other connection has, and its session id under ws.sid, which is also what SID() returns; it ends when its handler returns, with its request or connection, or with the context given to Listen, and for no other reason, in particular not with another websocket connection.", "quantifier": "every history of Listen, connections, requests, websocket connections and operations on contexts", "why_tests_cant": "needs all interleavings of connections and cancellations; a test opens few connections", "anchors": ["http/ws/handler.go:Handler.Server", "http/ws/handler.go:RpcHandler.Server", "http/ws/rpc.go:newRpcConn", "http/ws/conn.go:SID", "ctx/span.go:Span", "ctx/tags.go:WithTag"]}
{"id": "C159", "title": "The log lines of a request tell which request it was", "statement": "Whatever a client sends, a line that is logged with the context of its request (or of its websocket connection) is one line of JSON with the level, message and source of the log call, and the address, remote address, user agent and path of the request (the session id and tracking id of the connection) can be read from it; a client cannot add lines or fields, and requests for different paths have different lines.", "quantifier": "every history of requests and websocket connections, every user agent and path, every log call", "why_tests_cant": "needs all texts that clients may send, including quotes, line ends and bytes that are no UTF-8", "anchors": ["http/server.go:NewServer", "http/server.go:Server.Listen", "http/mux.go:Handle", "http/ws/handler.go:Handler.Server", "ctx/log/log.go:ExtractTags", "ctx/log/log.go:wrapSlogLogger", "ctx/log/log.go:NewDefaultSlogLogger"]}
{"id": "C160", "title": "A logged error tells its message, stack and tags", "statement": "When errors are among the arguments of a log call, the line has a tag error that lists them in order, each with its message and with the stack and all tags of every ctx.Error in it, whatever bytes are in them; so an error made with the context of a request tells the path, user agent and remote address of the request wherever it is logged.", "quantifier": "every list of arguments, every error, every chain of contexts, every message and tag", "why_tests_cant": "needs all errors and all texts in messages and tags; the tags are copied into the line as raw JSON", "anchors": ["ctx/log/log.go:FormatMsg", "ctx/log/log.go:ExtractTags", "ctx/log/log.go:wrapSlogLogger", "ctx/error.go:JSON.MarshalJSON"]}
{"id": "C161", "title": "Unmarshalling into a shared sync.Map", "statement": "When several goroutines unmarshal documents into one utils/sync.Map, the result is as if they were merged into it one after the other, whole documents at a time: a document that cannot be read changes nothing, keys in none of the documents keep their values, and a reader sees a document either whole or not at all.", "quantifier": "every number of goroutines, every documents, every order in which Go ranges over them, every interleaving with calls of Store, Delete and Load", "why_tests_cant": "needs all interleavings and all orders of ranging over a map", "anchors": ["utils/sync/map.go:Map.UnmarshalNode", "utils/sync/map.go:Map.Store", "utils/sync/map.go:Map.Delete", "utils/sync/map.go:Map.Load"]}
{"id": "C162", "title": "EqualsType passes exactly for values of one type", "statement": "test.EqualsType passes exactly if both values have the same dynamic type, whatever they hold; nil and a value of any type differ.", "quantifier": "all types and values, every call site", "why_tests_cant": "all types and values", "anchors": ["test/equals.go:EqualsType"]}
