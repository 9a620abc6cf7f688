{"id": "C01", "title": "Protobuf varint round trip", "statement": "Encoding any unsigned 64-bit integer as a varint and parsing it back, with arbitrary bytes following, yields the same integer and reports exactly the number of bytes that were written.", "quantifier": "all v < 2^64 and all trailing byte strings", "why_tests_cant": "2^64 values times every suffix; ten separately unrolled branches in both directions", "anchors": ["api/grpc/pb.go:appendVarint", "api/grpc/pb.go:consumeVarint"]}
{"id": "C02", "title": "Varint size is exact", "statement": "The size reported for an integer equals the number of bytes the varint encoder writes for it, and is between 1 and 10.", "quantifier": "all v < 2^64", "why_tests_cant": "the code uses an approximation of /7 that must be exact for every bit length and every value", "anchors": ["api/grpc/pb.go:sizeVarint", "api/grpc/pb.go:appendVarint"]}
{"id": "C03", "title": "Varint parsing is total and exact on arbitrary input", "statement": "Parsing any byte string as a varint either returns the value denoted by its shortest self-delimiting little-endian base-128 prefix together with that prefix's length, or fails: 'truncated' exactly when the input ends before the varint does, 'overflow' exactly when ten bytes do not fit in 64 bits.", "quantifier": "all byte strings", "why_tests_cant": "adversarial network input of any length and content", "anchors": ["api/grpc/pb.go:consumeVarint"]}
{"id": "C04", "title": "ZigZag is a bijection", "statement": "Zig-zag encoding then decoding returns the same signed integer and decoding then encoding the same unsigned one; small magnitudes map to small codes (|x| -> 2|x| or 2|x|-1).", "quantifier": "all int64 and all uint64 values", "why_tests_cant": "2^64 inputs, sign/shift corner cases", "anchors": ["api/grpc/pb.go:encodeZigZag", "api/grpc/pb.go:decodeZigZag"]}
{"id": "C05", "title": "Field tag round trip", "statement": "Writing a field tag (number, wire type) and parsing it back, with arbitrary bytes following, returns the same number and type; the tag size helper equals the bytes written; numbers below 1 or above int32 are rejected.", "quantifier": "all valid field numbers and wire types, all suffixes, all byte strings for rejection", "why_tests_cant": "large product space and adversarial input", "anchors": ["api/grpc/pb.go:appendTag", "api/grpc/pb.go:consumeTag", "api/grpc/pb.go:encodeTag", "api/grpc/pb.go:decodeTag", "api/grpc/pb.go:sizeTag"]}
{"id": "C06", "title": "Fixed-width integers round trip", "statement": "32 and 64 bit fixed-width fields are written little-endian and parse back to the same value consuming exactly 4 or 8 bytes; shorter inputs are reported truncated.", "quantifier": "all values and all suffixes", "why_tests_cant": "2^64 values", "anchors": ["api/grpc/pb.go:appendFixed32", "api/grpc/pb.go:consumeFixed32", "api/grpc/pb.go:appendFixed64", "api/grpc/pb.go:consumeFixed64"]}
{"id": "C07", "title": "Length-delimited payload round trip and bounds", "statement": "A length-prefixed byte string parses back to itself with the exact length; on arbitrary input the parser never returns bytes outside of the input, even for lengths close to 2^64.", "quantifier": "all payloads, all suffixes, all adversarial inputs", "why_tests_cant": "payloads of any length; integer overflow in length arithmetic", "anchors": ["api/grpc/pb.go:appendBytes", "api/grpc/pb.go:consumeBytes", "api/grpc/pb.go:appendString", "api/grpc/pb.go:consumeString", "api/grpc/pb.go:sizeBytes"]}
{"id": "C08", "title": "Field skipping is memory safe and terminates", "statement": "For any byte string, parsing one field (including nested groups) terminates without an out-of-range access, and on success consumes at least one and at most all of the bytes.", "quantifier": "all byte strings, all nesting depths", "why_tests_cant": "unbounded nesting and adversarial input; a loop whose termination is an argument about progress", "anchors": ["api/grpc/pb.go:consumeField", "api/grpc/pb.go:consumeFieldValueD"]}
{"id": "C09", "title": "Group round trip", "statement": "A group whose body is any sequence of well-formed fields (nested less deeply than the recursion limit) parses back to exactly that body and length; an end marker with a different number is rejected.", "quantifier": "all well-formed bodies, all group numbers", "why_tests_cant": "unbounded sequences and nesting", "anchors": ["api/grpc/pb.go:appendGroup", "api/grpc/pb.go:consumeGroup", "api/grpc/pb.go:sizeGroup"]}
{"id": "C10", "title": "Encoder length prefixes are exact", "statement": "For every value the Encoder accepts, the size it computes for a value is the number of bytes it writes for it, so each nested message's length prefix covers exactly its body.", "quantifier": "all values of all (recursively nested) types", "why_tests_cant": "recursive types of any depth; a wrong length corrupts everything after it", "anchors": ["api/grpc/enc.go:sizeof", "api/grpc/enc.go:Encoder.encode", "api/grpc/enc.go:sizeof_map", "api/grpc/enc.go:encode_map"]}
{"id": "C11", "title": "Encoder output is a well-formed field stream", "statement": "The bytes written for any value parse, field by field, to the end of the stream with no error, and the top-level field number is the one requested.", "quantifier": "all values of all types", "why_tests_cant": "same as C10", "anchors": ["api/grpc/enc.go:Encoder.encode", "api/grpc/pb.go:consumeField"]}
{"id": "C12", "title": "Encoder is lossless", "statement": "A protobuf reader that knows the Go type recovers the encoded value from the bytes (up to nil/empty distinctions protobuf cannot carry).", "quantifier": "all types and values", "why_tests_cant": "requires an inverse for every type", "anchors": ["api/grpc/enc.go:Encoder.encode"]}
{"id": "C13", "title": "Pub/sub delivery to every live listener, exactly once per send", "statement": "If a Listen call has returned before a Send starts and its context is not cancelled before that Send ends, then a Send that returns without error has invoked that listener with the message exactly once, no matter how many other goroutines concurrently Listen, Send or cancel.", "quantifier": "all interleavings of any number of Listen, Send and cancel operations", "why_tests_cant": "schedules: lock-free list with compare-and-swap append and unlink", "anchors": ["qnq/qnq.go:channel.register", "qnq/qnq.go:channel.send", "qnq/qnq.go:Chan.Send", "qnq/qnq.go:Chan.Listen"]}
{"id": "C14", "title": "Send on an empty channel is reported", "statement": "Send fails with ErrEmptyChannel only if it invoked no listener, and returns nil only if it invoked at least one; in particular a Send that starts after some live Listen has returned never reports an empty channel.", "quantifier": "all interleavings", "why_tests_cant": "schedules", "anchors": ["qnq/qnq.go:channel.send", "qnq/qnq.go:ErrEmptyChannel"]}
{"id": "C15", "title": "Listeners live only as long as their context", "statement": "A listener whose context was cancelled before a Send started is not invoked by that Send.", "quantifier": "all interleavings and all cancellation histories", "why_tests_cant": "history dependent: which node was head, which neighbours are cancelled", "anchors": ["qnq/qnq.go:channel.register", "qnq/qnq.go:channel.send", "qnq/qnq.go:Listener"]}
{"id": "C16", "title": "A failing listener stops the send and its error is returned", "statement": "If a listener returns an error Send returns that error and invokes no further listener; every listener before it was invoked exactly once.", "quantifier": "all interleavings and handler outcomes", "why_tests_cant": "schedules times outcomes", "anchors": ["qnq/qnq.go:channel.send"]}
{"id": "C17", "title": "Concurrent registrations are never lost", "statement": "After any number of concurrent Listen calls have all returned, every one of those listeners with a live context is reachable from the channel by every later Send.", "quantifier": "all interleavings of registrations, sends and clean-ups", "why_tests_cant": "schedules: append CAS racing with unlink CAS", "anchors": ["qnq/qnq.go:channel.register"]}
{"id": "C18", "title": "Use after free is always detected", "statement": "Once a pointer with a non-zero raw value has been ended, every later Get, Set, End or API call through any copy of that pointer panics and never observes or changes the recycled block, whatever allocations and frees happened in between.", "quantifier": "all operation histories", "why_tests_cant": "ABA: blocks are pooled and recycled, revisions wrap", "anchors": ["mmm/mmm.go:End", "mmm/mmm.go:Get", "mmm/mmm.go:Set", "mmm/mmm.go:API", "mmm/mmm.go:New", "mmm/mmm.go:revision"]}
{"id": "C19", "title": "Ending a lifetime frees every pointer bound to it exactly once", "statement": "When a lifetime ends, the Free method of every pointer created in it with New (and not already freed) is called exactly once.", "quantifier": "all histories of New / Free / End", "why_tests_cant": "history dependent linked-list manipulation", "anchors": ["mmm/mmm.go:New", "mmm/mmm.go:Lifetime.End", "mmm/mmm.go:freeable.free"]}
{"id": "C20", "title": "Double free is detected for every raw value", "statement": "Freeing a pointer a second time panics instead of releasing the block twice, also for raw values equal to zero.", "quantifier": "all raw values and histories", "why_tests_cant": "depends on value and on block recycling", "anchors": ["mmm/mmm.go:End"]}
{"id": "C21", "title": "Copies are reference counted", "statement": "Copying a pointer into another lifetime leaves the API object untouched and Free is called exactly once, when the last copy is released.", "quantifier": "all histories of Copy / Free / End", "why_tests_cant": "history dependent counting", "anchors": ["mmm/mmm.go:Copy", "mmm/mmm.go:freeable.free", "mmm/mmm.go:getAPI"]}
{"id": "C22", "title": "Pinned pointers cannot be moved or copied", "statement": "Moving or copying a pointer created by Pin or Let always panics and changes nothing.", "quantifier": "all states", "why_tests_cant": "must hold in every reachable state", "anchors": ["mmm/mmm.go:Move", "mmm/mmm.go:Copy", "mmm/mmm.go:Pin", "mmm/mmm.go:Let"]}
{"id": "C23", "title": "Ending a lifetime twice is harmless", "statement": "Calling End on a lifetime that already ended has no effect, even after the root has been recycled for a new lifetime.", "quantifier": "all histories", "why_tests_cant": "recycling of roots", "anchors": ["mmm/mmm.go:Lifetime.End", "mmm/mmm.go:NewLifetime"]}
{"id": "C24", "title": "Bit writers receive exactly the bytes written", "statement": "WriteBytes and WriteString hand the writer arrays whose bytes, concatenated, are exactly the given data and report its length in bits.", "quantifier": "all byte strings", "why_tests_cant": "all lengths around the 16 byte array boundary", "anchors": ["bit/bit.go:WriteBytes", "bit/bit.go:writeBytesSlow", "bit/bit.go:WriteString", "bit/bit.go:Array.Bytes"]}
{"id": "C25", "title": "Buffered bit stream preserves the byte sequence", "statement": "After any sequence of writes through a StreamWriter followed by Flush, the underlying writer has received exactly the concatenation of everything written, in order.", "quantifier": "all sequences of writes", "why_tests_cant": "buffer boundary arithmetic over unbounded histories", "anchors": ["bit/bit.go:StreamWriter.WriteBits", "bit/bit.go:StreamWriter.Flush"]}
{"id": "C26", "title": "In-memory key-value map behaves like a map", "statement": "After any sequence of Commit/Set/Del, Lookup of a key returns the last value committed for it and Values enumerates exactly the stored pairs.", "quantifier": "all operation sequences and keys", "why_tests_cant": "unbounded histories", "anchors": ["kvs/kvs.go:New", "kvs/kvs.go:Map.Set", "kvs/kvs.go:Map.Del", "kvs/kvs.go:Map.Get"]}
{"id": "C27", "title": "Lookup of an absent key is not an error", "statement": "Looking up or getting a key that was never stored (or was deleted) returns the zero value and false.", "quantifier": "all states and absent keys", "why_tests_cant": "must hold in every state", "anchors": ["kvs/kvs.go:New", "kvs/kvs.go:Map.Get"]}
{"id": "C28", "title": "Commit applies inserts then deletes; failures are reported", "statement": "Commit on a database-backed map performs all inserts before any delete, returns the first error, and performs nothing after it; without errors a key both inserted and deleted ends deleted.", "quantifier": "all insert sets, delete lists and error schedules", "why_tests_cant": "crash/error points", "anchors": ["kvs/kvs.go:Map.open"]}
{"id": "C29", "title": "In-memory SQL map refines an abstract map", "statement": "After any sequence of Insert, Set, Delete, Mutate, each Lookup returns the abstract map's value; Insert with Create fails with ErrDuplicate iff the key exists and then changes nothing; Delete and Mutate report whether the record existed and passed the check, and touch nothing else.", "quantifier": "all operation sequences", "why_tests_cant": "unbounded histories", "anchors": ["sql/ram.go:ram.Insert", "sql/ram.go:ram.Delete", "sql/ram.go:ram.Mutate", "sql/ram.go:ram.Lookup", "sql/map.go:Map"]}
{"id": "C30", "title": "Add never overwrites and never repeats a key", "statement": "Add returns a key that was not in the map and stores the value under it; two Adds never return the same key without error.", "quantifier": "all histories, all integer key widths", "why_tests_cant": "key wrap-around, interaction with explicit inserts", "anchors": ["sql/ram.go:ram.Add"]}
{"id": "C31", "title": "Bulk delete and update respect the requested slice", "statement": "UnsafeDelete and Update touch exactly the matching records with ordinal in [from, upto), report how many they touched, and refuse to run when the query has no range.", "quantifier": "all tables, queries, ranges, enumeration orders", "why_tests_cant": "boundary conditions for every range and table", "anchors": ["sql/ram.go:ram.UnsafeDelete", "sql/ram.go:ram.Update", "sql/sql.go:Slice"]}
{"id": "C32", "title": "Search yields exactly the matching records", "statement": "Search yields each stored record that satisfies all conditions of the query exactly once and no other, limited to the requested slice.", "quantifier": "all tables and queries", "why_tests_cant": "unbounded tables", "anchors": ["sql/ram.go:ram.Search", "sql/ram.go:ram.match"]}
{"id": "C33", "title": "Ordered search is sorted", "statement": "With an Order condition the results of Search are sorted by it; with several they are sorted lexicographically.", "quantifier": "all tables and orderings", "why_tests_cant": "correctness of a comparator over every permutation the sort visits", "anchors": ["sql/ram.go:ram.Search", "sql/sql.go:Order"]}
{"id": "C34", "title": "Row encoding round trip", "statement": "Flattening a Go value to database values and decoding them into a zero value of the same type yields the original value and consumes exactly its own columns, leaving the rest.", "quantifier": "all supported (nested) struct/array types and values", "why_tests_cant": "recursive types of any depth", "anchors": ["sql/sql.go:ValuesOf", "sql/sql.go:decode"]}
{"id": "C35", "title": "Columns and values line up", "statement": "For every supported type the number and kinds of columns declared for it equal the number and kinds of values produced for any of its values.", "quantifier": "all supported types and values", "why_tests_cant": "recursive types", "anchors": ["sql/sql.go:columnsOf", "sql/sql.go:ValuesOf"]}
{"id": "C36", "title": "Query combinators are boolean algebra", "statement": "On conditions evaluated in memory, Merge is conjunction, Cases is disjunction (true when empty), Avoid is negation, and a query matches a record iff all its conditions hold.", "quantifier": "all lists and nestings of conditions", "why_tests_cant": "unbounded nesting", "anchors": ["sql/sql.go:Merge", "sql/sql.go:Cases", "sql/sql.go:Avoid", "sql/ram.go:ram.match"]}
{"id": "C37", "title": "Duplex numbers enumerate all sign choices", "statement": "Values of a\u00b1b\u00b1c... returns exactly the 2^(n-1) sums over all sign choices in the documented order (plus before minus, leftmost most significant).", "quantifier": "all lengths and components", "why_tests_cant": "exponential in length", "anchors": ["xyz/duplex.go:Duplex.Values"]}
{"id": "C38", "title": "Enum text round trip", "statement": "Every declared value of a switch type marshals to its name and unmarshals back to the same value; unknown numbers marshal as their decimal form.", "quantifier": "all switch types (any number of distinct names) and storage kinds", "why_tests_cant": "every type definition", "anchors": ["xyz/switch.go:MarshalText", "xyz/switch.go:UnmarshalText", "xyz/switch.go:UnmarshalJSON", "xyz/switch.go:Values"]}
{"id": "C39", "title": "Tagged union: what you put in is what you get out", "statement": "For each case of a tagged union, Get of As(x) returns x and reports that case, and Get through any other case panics.", "quantifier": "all union types, cases, payloads and storage kinds", "why_tests_cant": "every type definition and storage representation", "anchors": ["xyz/tagged.go:accessor.as", "xyz/tagged.go:accessor.get"]}
{"id": "C40", "title": "Tagged union pair round trip", "statement": "Unmarshalling the (key, storage) pair produced for a union value restores the same case and storage, when case keys are distinct.", "quantifier": "all union types and values", "why_tests_cant": "every tag combination", "anchors": ["xyz/tagged.go:MarshalPair", "xyz/tagged.go:UnmarshalPair", "xyz/tagged.go:accessor.key"]}
{"id": "C41", "title": "Tagged union JSON dispatch", "statement": "Unmarshalling the JSON produced for a union value selects the same case, for implicit-object, discriminated and kind-tagged unions.", "quantifier": "all union types and values", "why_tests_cant": "every combination of tags and order of cases", "anchors": ["xyz/tagged.go:taggedMethods.MarshalJSON", "xyz/tagged.go:taggedMethods.UnmarshalJSON"]}
{"id": "C42", "title": "Tuple JSON round trip and flattening", "statement": "Pairs, trios and quads marshal to arrays that unmarshal to the same components; expanding nested tuples lists the leaves left to right.", "quantifier": "all tuples and nestings", "why_tests_cant": "unbounded nesting", "anchors": ["xyz/tuples.go:Pair", "xyz/tuples.go:expand"]}
{"id": "C43", "title": "Optional values", "statement": "An included Maybe value survives a JSON round trip and an omitted one becomes null and back; unmarshalling into one Maybe does not change another.", "quantifier": "all values and aliasing histories", "why_tests_cant": "aliasing through shared map storage", "anchors": ["xyz/xyz.go:Maybe"]}
{"id": "C44", "title": "JSON string round trip", "statement": "Any valid UTF-8 string encoded by the JSON encoder decodes to itself; invalid bytes become U+FFFD; the output contains no raw control characters or unescaped quotes.", "quantifier": "all byte strings", "why_tests_cant": "all contents: escapes, surrogates, separators", "anchors": ["api/jrpc/enc.go:Encoder.string", "api/jrpc/dec.go:Decoder.decode"]}
{"id": "C45", "title": "JSON integer round trip", "statement": "Every integer of every width encodes to decimal and decodes to the same integer, when followed by any delimiter or the end of input.", "quantifier": "all int64/uint64 values", "why_tests_cant": "2^64 values, the minimum int64", "anchors": ["api/jrpc/enc.go:Encoder.encode", "api/jrpc/dec.go:Decoder.decode"]}
{"id": "C46", "title": "JSON arrays and objects round trip", "statement": "Slices, maps and structs encoded by the encoder decode to the same value, including empty ones.", "quantifier": "all nested values", "why_tests_cant": "unbounded nesting", "anchors": ["api/jrpc/enc.go:Encoder.encode", "api/jrpc/enc.go:encode_map", "api/jrpc/dec.go:Decoder.decode"]}
{"id": "C47", "title": "JSON booleans, null and floats decode correctly", "statement": "The decoder maps true/false/null/decimal literals to the value they denote and rejects every other spelling.", "quantifier": "all inputs and all prior contents of the target", "why_tests_cant": "all spellings and target states", "anchors": ["api/jrpc/dec.go:Decoder.decode"]}
{"id": "C48", "title": "Decoding does not depend on how input is chunked", "statement": "The decoded value is the same however the underlying reader splits its bytes over Read calls.", "quantifier": "all chunkings of all inputs", "why_tests_cant": "read schedules", "anchors": ["api/jrpc/dec.go:Decoder.scan_byte", "api/jrpc/dec.go:Decoder.peek_byte"]}
{"id": "C49", "title": "Base64 of byte slices is standard", "statement": "Byte slices are written as quoted standard padded base64 that decodes to the same bytes.", "quantifier": "all byte slices", "why_tests_cant": "all lengths mod 3 and contents", "anchors": ["api/jrpc/enc.go:Encoder.base64"]}
{"id": "C50", "title": "Websocket frames carry the payload length", "statement": "Every text frame written by the server (and by the client) starts with a header from which a standard reader recovers exactly the payload.", "quantifier": "all payload lengths and contents", "why_tests_cant": "three length encodings; boundaries at 126 and 65535", "anchors": ["api/rest/sock.go:websocketServeHTTP", "api/rest/sock.go:websocketOpen"]}
{"id": "C51", "title": "Websocket unmasking inverts masking", "statement": "A text frame masked by any conforming client with any mask key is delivered to the application unmasked to the original payload.", "quantifier": "all mask keys and payloads", "why_tests_cant": "2^32 keys", "anchors": ["api/rest/sock.go:websocketServeHTTP"]}
{"id": "C52", "title": "Request routing finds the registered handler", "statement": "After registering any set of patterns, a request whose method and path match a pattern (literals preferred over placeholders, segment by segment) is dispatched to that pattern's handler with each placeholder bound to its segment; a request that matches none gets the not-found handler.", "quantifier": "all sets of patterns and all requests", "why_tests_cant": "unbounded route tables and paths", "anchors": ["api/rest/path.go:mux.Handle", "api/rest/path.go:mux.ServeHTTP"]}
{"id": "C53", "title": "A request never reaches a handler of another method", "statement": "A handler registered for one HTTP method is never run for a request with another method.", "quantifier": "all route tables and requests", "why_tests_cant": "adversarial paths", "anchors": ["api/rest/path.go:mux.Handle", "api/rest/path.go:mux.ServeHTTP"]}
{"id": "C54", "title": "REST tag rules are parsed back", "statement": "For a tag assembled from a method, a path, argument rules and result rules, each accessor returns the component it was assembled from.", "quantifier": "all methods, paths and rule lists (free of separators)", "why_tests_cant": "all strings", "anchors": ["api/internal/rtags/rtags.go"]}
{"id": "C55", "title": "FFI handles stay valid until freed and not after", "statement": "A handle returned for a value resolves to that value until it is freed; distinct handles never alias; after Free, resolving the handle fails.", "quantifier": "all histories of allocations, frees and lookups, all interleavings", "why_tests_cant": "unbounded histories", "anchors": ["ffi/src.go:handle.New", "ffi/src.go:handle.Get", "ffi/src.go:handle.End"]}
{"id": "C56", "title": "Flattened size equals bytes written", "statement": "The number of bytes a value occupies when flattened for another runtime equals the size announced for its type.", "quantifier": "all types and values", "why_tests_cant": "recursive types", "anchors": ["ffi/mem.go:sizeOf", "ffi/mem.go:read"]}
{"id": "C57", "title": "Slice reads place each element at its offset", "statement": "Reading k elements of a slice fills the buffer with the k encodings back to back.", "quantifier": "all slices, element types, offsets and counts", "why_tests_cant": "unbounded lengths", "anchors": ["ffi/mem.go:sliceReader.ReadAt"]}
{"id": "C58", "title": "Cached state round trip", "statement": "A value stored in a cached state under a type is returned unchanged for that type and refused (panic) for any other type.", "quantifier": "all cacheable values and types", "why_tests_cant": "all bit patterns", "anchors": ["via/via.go:NewCache", "via/via.go:Cached"]}
{"id": "C59", "title": "Proxy reuses a live proxy and otherwise allocates once", "statement": "Proxy returns the existing proxy and state when it is alive and of the right kind; otherwise it calls the allocator exactly once and informs the old proxy of the replacement.", "quantifier": "all proxies and states", "why_tests_cant": "all liveness outcomes", "anchors": ["via/via.go:Proxy"]}
{"id": "C60", "title": "Remote function values survive serialisation", "statement": "A function value marshalled to JSON, unmarshalled, and called through a transport in which it is registered calls the registered function with the original arguments.", "quantifier": "all registered functions and arguments", "why_tests_cant": "all registries", "anchors": ["rpc/rpc.go:Any", "rpc/rpc.go:Call", "rpc/rpc.go:Transport"]}
{"id": "C61", "title": "Listeners are invoked in registration order", "statement": "If Listen for listener A had returned before Listen for listener B was called, both before a Send starts, and A's context is not cancelled, then when that Send invokes B it has already invoked A exactly once; and no Send ever reads a listener slot whose handler and context have not been written yet.", "quantifier": "all interleavings of any number of Listen, Send and cancel operations", "why_tests_cant": "schedules: a slot is published in three separate writes", "anchors": ["qnq/qnq.go:channel.register", "qnq/qnq.go:channel.send"]}
{"id": "C62", "title": "The Encoder reports a failing writer", "statement": "If the io.Writer starts failing after any number of accepted writes, Encode writes nothing further, returns that write error, and what was written before is a prefix of the complete output; with a writer that never fails the result is the complete output.", "quantifier": "all values and all points at which the writer can fail", "why_tests_cant": "every failure point of every recursive value", "anchors": ["api/grpc/enc.go:Encoder.encode", "api/grpc/enc.go:write", "api/grpc/enc.go:encode_map"]}
{"id": "C63", "title": "A moved pointer stays usable", "statement": "After Move(ptr, lifetime) the pointer can still be read and is freed when the new lifetime ends.", "quantifier": "all states and lifetimes", "why_tests_cant": "must hold for every history", "anchors": ["mmm/mmm.go:Move"]}
{"id": "C64", "title": "Copying a freed pointer changes nothing", "statement": "Copy of a pointer that has been freed panics and has no effect on the pointer that now owns the recycled block.", "quantifier": "all histories", "why_tests_cant": "depends on block recycling", "anchors": ["mmm/mmm.go:Copy"]}
{"id": "C65", "title": "Mutate and Delete are atomic", "statement": "On an in-memory map shared by goroutines, concurrent Mutate, Delete, Set, Insert, Add and Lookup calls behave as if executed one after the other: no update is lost.", "quantifier": "all numbers of goroutines and all interleavings", "why_tests_cant": "depends on the schedule", "anchors": ["sql/ram.go:ram.Mutate", "sql/ram.go:ram.Delete", "sql/ram.go:ram.Insert"]}
{"id": "C66", "title": "Count and Length are exact", "statement": "Count returns the number of stored records satisfying the query and Length the number of all stored records, whatever order the table is enumerated in.", "quantifier": "all tables, queries and enumeration orders", "why_tests_cant": "unbounded tables", "anchors": ["sql/map.go:Map.Count", "sql/map.go:Map.Length", "sql/ram.go:ram.Output"]}
{"id": "C67", "title": "First finds a match iff there is one", "statement": "First returns a stored record that satisfies the query, and reports none only if no record does.", "quantifier": "all tables, queries and enumeration orders", "why_tests_cant": "unbounded tables", "anchors": ["sql/map.go:Map.First", "sql/ram.go:ram.Search"]}
{"id": "C68", "title": "Sum adds the column over the matching records", "statement": "Output with a Sum statistic leaves in the destination the sum of the column over the matching records.", "quantifier": "all in-memory tables and queries", "why_tests_cant": "unbounded tables", "anchors": ["sql/sql.go:Sum", "sql/ram.go:ram.Output"]}
{"id": "C69", "title": "Documented column names", "statement": "The column of a field is named by the names on the path to it joined with underscores, where an embedded struct adds nothing to the path, and each array element by the array's name followed by its index.", "quantifier": "all supported (nested) struct/array types", "why_tests_cant": "recursive types of any depth", "anchors": ["sql/map.go:Open", "sql/sql.go:columnsOf"]}
{"id": "C70", "title": "Websocket clients cannot crash the server", "statement": "No sequence of frames sent by a websocket client to a channel endpoint makes the server process panic.", "quantifier": "all byte streams a client can send", "why_tests_cant": "unbounded input space", "anchors": ["api/rest/sock.go:websocketServeHTTP", "api/rest/host.go:handleStreamingResult"]}
{"id": "C71", "title": "Linked functions that return channels can be called", "statement": "Calling a function of a linked REST API that returns a receive-only or send-only channel yields that channel connected to the remote endpoint.", "quantifier": "all function signatures with channel results", "why_tests_cant": "all signatures", "anchors": ["api/rest/link.go:link", "api/rest/sock.go:websocketOpen"]}
{"id": "C72", "title": "Streamed results are complete and in order", "statement": "Each item yielded by a served iterator appears exactly once and in order in the event-stream (or JSON array) answer; on cancellation or an encoding failure exactly the items before it appear.", "quantifier": "all item sequences, cancellation points and encoding failures", "why_tests_cant": "unbounded sequences and schedules", "anchors": ["api/rest/host.go:handleStreamingData", "api/rest/host.go:iteratorSource.Iterate", "api/rest/host.go:sseStreamWriter.WriteItem"]}
{"id": "C73", "title": "Event-stream client delivers every event", "statement": "Opening an event stream delivers the decoded value of each event to the channel, in order.", "quantifier": "all event sequences", "why_tests_cant": "unbounded input", "anchors": ["api/rest/sock.go:sseClientOpen"]}
{"id": "C74", "title": "Not-found handler sees the request path", "statement": "A not-found handler set on an API handler receives the request with its original URL path, so that APIs can be chained.", "quantifier": "all route tables and all requests that match none of their patterns", "why_tests_cant": "unbounded tables and paths", "anchors": ["api/rest/path.go:mux.ServeHTTP", "api/rest/path.go:mux.SetNotFoundHandler"]}
{"id": "C75", "title": "Tag parameters stand for the arguments their formats name", "statement": "In a rest tag, the k-th %v or %[n]v in the path or query stands for the argument it numbers, under its name and in that place; every other argument travels in the body, named by the argument rules in order.", "quantifier": "all tags, functions and argument counts", "why_tests_cant": "the set of tags is infinite", "anchors": ["api/rest/rest.go:parser.parseParam", "api/rest/rest.go:parser.parsePath", "api/rest/rest.go:parser.parseQuery", "api/rest/rest.go:parser.parseBody", "api/rest/rest.go:loadOperation"]}
{"id": "C76", "title": "A linked call delivers its arguments", "statement": "Calling a function linked over HTTP runs the hosted function with the same arguments.", "quantifier": "all tags, routing tables and argument values", "why_tests_cant": "arguments, tags and routing tables are unbounded", "anchors": ["api/rest/link.go:operation.clientWrite", "api/rest/host.go:attach", "api/rest/path.go:mux.ServeHTTP"]}
{"id": "C77", "title": "Slice query arguments arrive", "statement": "A slice passed for a query parameter of a linked function arrives with its elements.", "quantifier": "all slices and parameter names", "why_tests_cant": "slices are unbounded", "anchors": ["api/rest/link.go:operation.encodeQuery", "api/rest/host.go:attach"]}
{"id": "C78", "title": "Several body arguments arrive", "statement": "A linked function with two or more body arguments and no argument rules receives them.", "quantifier": "all tags and arguments", "why_tests_cant": "tags and arguments are unbounded", "anchors": ["api/rest/link.go:operation.clientWrite", "api/rest/host.go:attach"]}
{"id": "C79", "title": "Unsupported kinds are reported", "statement": "Encoding a value that contains a channel, function, complex number or another kind protobuf cannot carry always returns an error (or panics); values without such a part are never rejected for this reason.", "quantifier": "all values, nested to any depth, and all writers", "why_tests_cant": "the kind may hide at any depth of an unbounded value", "anchors": ["api/grpc/enc.go:Encoder.Encode", "api/grpc/enc.go:encode"]}
{"id": "C80", "title": "Iterating an opened map", "statement": "Values of a map opened on a database hands over every pair the database holds, in the database's order, and stops as soon as the consumer says so.", "quantifier": "all databases, contents and stopping points", "why_tests_cant": "contents and stopping points are unbounded", "anchors": ["kvs/kvs.go:Open", "kvs/kvs.go:Map.Values"]}
{"id": "C81", "title": "A live pointer reads back its value", "statement": "Until it is freed, Get on a pointer returns the value it was created with or last Set to, whatever is done to other pointers; New succeeds and returns a pointer different from every live one, whose API is the one given.", "quantifier": "all histories of lifetimes, New, Pin, Set, Free and End", "why_tests_cant": "histories are unbounded and blocks are recycled through pools", "anchors": ["mmm/mmm.go:Get", "mmm/mmm.go:Set", "mmm/mmm.go:New", "mmm/mmm.go:API"]}
{"id": "C82", "title": "Websocket control frames", "statement": "A ping frame of any length, masked or not, is consumed whole and answered with a pong carrying its data; a close frame is answered and ends the conversation; frames of other kinds are skipped whole; closing the channel sends a close frame.", "quantifier": "all frames, lengths and masking keys", "why_tests_cant": "unbounded frames and positions in the stream", "anchors": ["api/rest/sock.go:websocketServeHTTP", "api/rest/sock.go:websocketOpen"]}
{"id": "C83", "title": "The decoder reads every JSON string", "statement": "Every string of the JSON grammar, with raw UTF-8, short escapes, \\u escapes and escaped surrogate pairs, decodes to the string it stands for, after any white space and whatever follows.", "quantifier": "all JSON strings", "why_tests_cant": "unbounded texts and all escapes", "anchors": ["api/jrpc/dec.go:Decoder.decode_string"]}
{"id": "C84", "title": "Integers out of range are rejected", "statement": "Decoding an integer that does not fit the target's type reports an error and never stores another number.", "quantifier": "all integer literals and widths", "why_tests_cant": "2^64 values and all widths", "anchors": ["api/jrpc/dec.go:Decoder.decode"]}
{"id": "C85", "title": "One set of accessors per tagged type", "statement": "However many goroutines first use a tagged union type at the same time, all of them see the same set of case accessors, so that a value made through one is recognised by the others.", "quantifier": "all interleavings of any number of goroutines", "why_tests_cant": "unbounded schedules", "anchors": ["xyz/tagged.go:storage.accessors", "xyz/tagged.go:varWith.Values"]}
{"id": "C86", "title": "Numbers set through a pointer handle are read back", "statement": "After any history of calls on the handle API, a number set through a pointer handle is what reading that handle gives until the next number is set through it; setting it never fails, and the pointer can be asked whether it is nil.", "quantifier": "all histories of API calls, all kinds of numbers", "why_tests_cant": "unbounded histories", "anchors": ["ffi/src.go:Pointers", "ffi/src.go:Encode", "ffi/src.go:Decode"]}
{"id": "C87", "title": "Strings cross the handle API byte for byte", "statement": "A string made from a pointer and a length has that length, its data are read back one byte at a time and in order, decoding it gives exactly those bytes, and a string variable holds the last string stored in it.", "quantifier": "all strings and all histories of API calls", "why_tests_cant": "unbounded lengths and histories", "anchors": ["ffi/src.go:Strings", "ffi/dec.go:API.Decode"]}
{"id": "C88", "title": "Function calls through handles pass arguments and give results", "statement": "Calling a function handle passes the arguments and gives its results in order, whatever their types.", "quantifier": "all functions, argument lists and histories", "why_tests_cant": "unbounded histories", "anchors": ["ffi/src.go:Functions", "ffi/dec.go:decode", "ffi/dec.go:decodeRef"]}
{"id": "C89", "title": "The schema of a remote function type lists every registered function", "statement": "After any history of registrations, the JSON types of a remote function value list, in order of registration, exactly the registered functions that give that function type, each with its name and its receiver type.", "quantifier": "all histories of registrations, on any number of transports", "why_tests_cant": "unbounded histories", "anchors": ["rpc/rpc.go:Transport.Register", "rpc/rpc.go:Any.TypesJSON"]}
{"id": "C90", "title": "Which struct fields are written as JSON", "statement": "The JSON encoder writes every field of a struct under its tag's name or else its own, except those tagged \"-\" and those that are empty (omitempty) or zero (omitzero) and say so; what it writes is read back under the same names.", "quantifier": "all struct types, tags and values", "why_tests_cant": "unbounded inputs", "anchors": ["api/jrpc/enc.go:Encoder.encode", "api/jrpc/dec.go:Decoder.decode"]}
{"id": "C91", "title": "Assembled AMD64 programs are the instructions asked for", "statement": "A program made with Add, AddWithCarry, BitwiseAnd, BitwiseOr, BitwiseXor, their memory forms and Return, in any combination of operands that the types allow, is laid out as bytes that an AMD64 CPU reads as exactly those instructions, with those operands, in that order.", "quantifier": "all programs of any length, all registers with names, all pointers, all immediate values", "why_tests_cant": "unbounded programs, 2^32 immediates", "anchors": ["cpu/amd64/api.go", "cpu/amd64/asm.go", "cpu/amd64/cpu.go:Compile"]}
{"id": "C92", "title": "The AMD64 registers R8 to R15 are encoded as asked for", "statement": "A register or pointer number from 8 to 15 stands for R8 to R15 in every instruction that accepts it.", "quantifier": "all pairs of register numbers below 16", "why_tests_cant": "all combinations of forms and registers", "anchors": ["cpu/amd64/asm.go:add.AppendAMD64", "cpu/amd64/asm.go:adc.AppendAMD64"]}
{"id": "C93", "title": "ARM64 calls are the instructions of the manual", "statement": "Each function of the ARM64 assembler API, called with operands in range, appends the 32 bit word that the ARM architecture manual gives for the instruction of that name with those operands, and a program of several calls is those words in order, lowest byte first.", "quantifier": "all calls, all register numbers, shifts, extensions, immediates and offsets in range, programs of any length", "why_tests_cant": "millions of operand combinations per call and unbounded programs", "anchors": ["cpu/arm64/api.go:API", "cpu/arm64/asm.go:Assemble", "cpu/arm64/cpu.go:Compile", "cpu/arm64/bit.go"]}
{"id": "C94", "title": "Bit pattern immediates of ARM64 are encoded as their value", "statement": "AND and ANDS with an immediate accept a 64 bit value exactly when it is a logical immediate of the architecture (a rotated run of ones in a repeated element), and then the encoded N, immr and imms stand for that value.", "quantifier": "all 2^64 values", "why_tests_cant": "2^64 values", "anchors": ["cpu/arm64/bit.go:BitPattern.encode", "cpu/arm64/asm.go"]}
{"id": "C95", "title": "Compile reports the errors of the assembly function", "statement": "When an instruction cannot be encoded, Compile returns an error instead of code that lacks the instruction.", "quantifier": "all assembly functions", "why_tests_cant": "unbounded programs", "anchors": ["cpu/arm64/cpu.go:Compile"]}
{"id": "C96", "title": "Paired fields are carried over in both directions", "statement": "The functions made by pair.Make from a 1:1 mapping give every paired field the value of its partner (or of its constant), leave the others zero, and going there and back gives the paired fields their old values.", "quantifier": "all struct types, mappings, rules and values, slices of any depth and length", "why_tests_cant": "unbounded types and values", "anchors": ["api/pair/pair.go:Make", "api/pair/pair.go:Slice", "api/pair/pair.go:Map"]}
{"id": "C97", "title": "Field errors are renamed to the paired field", "statement": "The error function made by pair.Make turns an error about a field of Into (itself an Error, or made one by the registry, later functions first) into the same error about the paired field of From, and hands on every other error unchanged, nil included.", "quantifier": "all mappings, registries and errors", "why_tests_cant": "unbounded mappings and registries", "anchors": ["api/pair/pair.go:Make", "api/pair/pair.go:Registry"]}
{"id": "C98", "title": "Arguments of a linked command are passed as they are", "statement": "Calling a function linked to a command-line program starts that program with exactly the words of the function's tag, each placeholder replaced by the words of the argument it names, in the order of the tag: a string argument is one word whatever characters it has (blanks, quotes, shell syntax, an empty string), a slice gives its elements, a nil pointer or slice gives nothing. Functions in a namespace get the namespace's words first.", "quantifier": "every tag of words and placeholders, all argument values", "why_tests_cant": "injection-like cases need every possible string content and every tag shape", "anchors": ["api/cmdl/link.go:linkStructure", "api/cmdl/link.go:link", "api/cmdl/link.go:cmdInput.add"]}
{"id": "C99", "title": "Placeholders name the argument they say", "statement": "In a tag, the n-th %v stands for the n-th argument, %[k]v for the k-th, and {Name} for the field of that name of a struct argument; one that stands for no argument is an error.", "quantifier": "every list of arguments, every position of the scanner", "why_tests_cant": "positions interact with how many placeholders came before", "anchors": ["api/api.go:ArgumentScanner.Scan"]}
{"id": "C100", "title": "Options structs are packed as their tags say", "statement": "Each exported field of an options struct adds to the command line what its tag says: a flag when a bool is true, pre%vpost or two words with the value, nothing when omitempty and zero, a variable of the environment, the working directory; fields in order, nothing else.", "quantifier": "every struct of tagged fields with all values", "why_tests_cant": "combinations of field forms and values are unbounded", "anchors": ["api/cmdl/link.go:cmdInput.add"]}
{"id": "C101", "title": "The command that is run is the one typed", "statement": "A program's function is called exactly when the words of its tag are the ones typed, with the further arguments in the order of its placeholders; anything else is an error.", "quantifier": "every set of command tags, every command line", "why_tests_cant": "the best-match rule depends on all tags together", "anchors": ["api/cmdl/main.go:System.Run", "api/cmdl/main.go:System.match"]}
{"id": "C102", "title": "Options are read from the command line", "statement": "Flags and valued options at their place on the command line set exactly the fields whose tags they match, inverted flags the other way around, and what follows them is left for the next parameters.", "quantifier": "every options struct, every list of arguments", "why_tests_cant": "order and repetition of options is unbounded", "anchors": ["api/cmdl/main.go:System.consume"]}
{"id": "C103", "title": "The result of a linked command is its whole output", "statement": "The result of a linked function is what the program wrote to its standard output, all of it: the text without its final newline, its lines, or its number; a number that does not fit is an error.", "quantifier": "every output, every schedule of the program, the copying goroutine and the call", "why_tests_cant": "losing the end of the output depends on the schedule", "anchors": ["api/cmdl/link.go:link"]}
{"id": "C104", "title": "A made function is its implementation", "statement": "Calling a function of an API whose implementation was set with Make is calling that implementation: with the caller's context and arguments, giving its results (or zero values) and its error; a function that can't return the error panics with it. An implementation of another type is never called, a function without one returns ErrNotImplemented, MakeError and Return give the error they are given.", "quantifier": "every function type, implementation, context and arguments", "why_tests_cant": "the behaviour depends on the function's type, of which there are unboundedly many", "anchors": ["api/api.go:Function.Make", "api/api.go:Function.Call", "api/api.go:Function.MakeError", "api/api.go:Function.Return", "api/api.go:Function.In"]}
{"id": "C105", "title": "An API is the function fields of its struct", "statement": "The functions of a structure are exactly the function fields of the struct, at any depth, each once, in an order that does not depend on map iteration; a linker's error makes every one of them return it; and each function's path is the names of the namespaces that lead to it.", "quantifier": "every struct type of functions and nested structs, every order of map iteration, every linker", "why_tests_cant": "nesting is unbounded and map order is random", "anchors": ["api/api.go:StructureOf", "api/api.go:Structure.Iter", "api/api.go:Import", "api/api.go:Structure.MakeError", "api/api.go:Structure.link"]}
{"id": "C106", "title": "Documentation keeps its text", "statement": "The documentation of a function is the text of its tag after the first line, less the indentation of the first documented line at the start of each line that has it, and nothing else.", "quantifier": "every tag", "why_tests_cant": "text of any shape", "anchors": ["api/api.go:DocumentationOf"]}
{"id": "C107", "title": "Stubs return zero values or the error", "statement": "Every function of a stubbed API, at any depth, returns zero values of its types (an empty reader for io.ReadCloser) and no error, or the stub's error, with which it panics when it can't return it.", "quantifier": "every API structure and function type, all arguments", "why_tests_cant": "function types are unbounded", "anchors": ["api/stub/stub.go:linker.Link", "api/stub/stub.go:linker.stub"]}
{"id": "C108", "title": "No function is served without authorization", "statement": "A REST host with an Auth calls a function only after Authenticate and then Authorize have agreed, with the context Authenticate returned and the very arguments Authorize was shown; the arguments are not even read before Authenticate; and what a failing request is answered discloses no more than the redacted error.", "quantifier": "every resource, request, authenticator, function and error", "why_tests_cant": "a leak may depend on any combination of error, header and method", "anchors": ["api/rest/host.go:attach", "api/rest/host.go:handle", "api/rest/form.go:formHandler.ServeHTTP"]}
{"id": "C109", "title": "Errors cross the wire", "statement": "An error returned by a function of a REST API reaches the caller of the linked function as an error with the same message and status; scenarios give theirs, a missing implementation says so, and registered error types arrive as themselves.", "quantifier": "every error, status, message, redaction and list of scenarios", "why_tests_cant": "each status is treated on its own on the client's side, and messages are arbitrary text", "anchors": ["api/rest/host.go:handle", "api/rest/link.go:decodeError", "api/internal/http/http.go:ResponseError", "api/internal/http/http.go:responseError"]}
{"id": "C110", "title": "Results cross the wire", "statement": "The results of a function of a REST API reach the caller of the linked function unchanged; any client gets the first of the content types it accepts that is supported, or 415; the content of a reader is received exactly.", "quantifier": "every value, list of results, Accept header, content", "why_tests_cant": "header and encoding rules interact with each result's own status and headers", "anchors": ["api/rest/host.go:attach", "api/rest/link.go:operation.clientRead", "api/rest/mime.go:contentTypes"]}
{"id": "C111", "title": "Values recorded in a context come out in order", "statement": "xray: the values added to a context are got back by type, in the order they were added and each exactly once, however many there are and however goroutines are scheduled; adding never blocks, and getting a value that is not there gives the zero value.", "quantifier": "every sequence of calls, type, number of values, schedule of goroutines", "why_tests_cant": "a lost, doubled or blocked value depends on when a channel is full and on the schedule", "anchors": ["api/xray/xray.go:ContextAdd", "api/xray/xray.go:ContextGet", "api/xray/xray.go:ContextHas"]}
{"id": "C112", "title": "Recording does not change what is read and written", "statement": "xray: a recording reader reads what its source has, reports its failure and closes it; a recording writer hands on every write and shows exactly what was written.", "quantifier": "every source, sink, sequence of writes", "why_tests_cant": "sources may fail after any amount of content", "anchors": ["api/xray/xray.go:NewReader", "api/xray/xray.go:NewWriter"]}
{"id": "C113", "title": "The right format parses a value", "statement": "fmts: after linking, every parser and formatter of a structure, also in namespaces, works by its own tag, and a function giving any returns the parser whose format the value fits best: a value written by one of the formats is parsed by that format, whatever its arguments, and a value that fits none by none.", "quantifier": "every structure, set of formats, value and order of map iteration", "why_tests_cant": "formats compete with each other on arbitrary text", "anchors": ["api/fmts/fmts.go:candidate.rank", "api/fmts/fmts.go:linker.fill", "api/fmts/fmts.go:linker.Link"]}
{"id": "C114", "title": "Validation reports every problem once, by name", "statement": "data: an object reports nothing exactly when none of its checks failed; otherwise it reports every error, in order, each naming the field it is about, in one message and with status 400; each check fails exactly on the values it is for, and the elements of slices and maps are all checked.", "quantifier": "every struct, list of checks, value, limit and order of map iteration", "why_tests_cant": "objects nest and their fields and errors combine freely", "anchors": ["api/data/data.go:Object", "api/data/data.go:errReports", "api/data/data.go:mirror.reflect", "api/data/data.go:Sliced", "api/data/data.go:Mapped", "api/data/data.go:String"]}
{"id": "C115", "title": "WebAssembly calls pass their values", "statement": "wasm: a function exported to a WebAssembly module is called with exactly the values the module passes and the module gets exactly the value it returns, each read from and written to the words its type declares; errors are reported to the module, not lost.", "quantifier": "every type, nesting of structs and arrays, value, previous content of the words", "why_tests_cant": "layouts nest without bound and depend on stale words", "anchors": ["api/wasm/export.go:goTypeToWasmTypes", "api/wasm/export.go:decodeGoValueFromWasmStack", "api/wasm/export.go:encodeGoValueToWasmStack", "api/wasm/export.go:export_api"]}
{"id": "C116", "title": "WebAssembly imports find their functions", "statement": "wasm: a module that imports an API by name gets the functions of the API of that name, by name; when there is no such API each function reports it when called.", "quantifier": "every list of libraries, functions and names", "why_tests_cant": "names may be missing or repeated in any list", "anchors": ["api/wasm/export.go:dynamic_link", "api/wasm/import_wasm.go:Import"]}
{"id": "C117", "title": "A Runner runs what it was given", "statement": "wasm: a Runner runs the file last set, with all APIs added and the system interface set, any number of times and whether or not it was compiled before.", "quantifier": "every sequence of Add, Set, SetSystemInterface, Compile and Run", "why_tests_cant": "the order of calls matters", "anchors": ["api/wasm/runner.go:Runner.Run", "api/wasm/runner.go:Runner.Compile", "api/wasm/runner.go:Runner.assertRuntime"]}
{"id": "C118", "title": "Library tags mean what is documented", "statement": "call: every library tag written in the documented language (names, C types, ownership, assertions, failure handlers, nested functions) is accepted and gives the type it describes.", "quantifier": "every tag of the language", "why_tests_cant": "types nest without bound", "anchors": ["api/call/internal/ffi/tag.go:ParseTag", "api/call/docs.go:call"]}
{"id": "C119", "title": "Only well-formed library tags are accepted", "statement": "call: every tag ParseTag accepts describes a well-formed type: identifiers for names, known ownerships, parameters numbered in order, assertions about something that exists; parsing ends on every input and never panics.", "quantifier": "every byte string", "why_tests_cant": "the input space is unbounded", "anchors": ["api/call/internal/ffi/tag.go:ParseTag"]}
{"id": "C120", "title": "Library functions are found in order of preference", "statement": "call: linking a structure to shared libraries binds each tagged function to the first of its names, in order of preference, that one of the libraries has; functions that cannot be bound report an error when called; linking fails only when no library can be opened.", "quantifier": "every list of libraries, names and symbols", "why_tests_cant": "any name may be missing in any library", "anchors": ["api/call/link.go:linker.Link", "api/call/link.go:link"]}
{"id": "C121", "title": "C functions see the integers they are passed", "statement": "call: a linked function calls the C function with each parameter equal to the Go argument mapped to it; inferred parameters are left out of the Go signature.", "quantifier": "every signature over integer types and every argument", "why_tests_cant": "values at the edge of each of forty integer types, in any position", "anchors": ["api/call/link.go:compile", "api/call/call.go:platform.Call", "api/call/internal/cgo/gen_linux_amd64.go:Types"]}
{"id": "C122", "title": "C functions see the strings and memory they are passed", "statement": "call: a string passed for a C string arrives with all its bytes and a terminator, a slice or pointer arrives as its address and an inferred length is that of the string or slice.", "quantifier": "every string, slice and position", "why_tests_cant": "every byte value at every position", "anchors": ["api/call/link.go:compile", "api/call/link.go:inferValue", "api/call/internal/jit/jit.go:Assembly.NullTerminated", "api/call/internal/jit/val.go:Value.UnsafePointer"]}
{"id": "C123", "title": "Results of C functions are returned", "statement": "call: the Go function returns the value the C function returned, as a bool whether it is not zero, and an error when the assertion on the result in the tag does not hold; signatures that do not fit are reported before the C function runs.", "quantifier": "every C function, result and Go result type", "why_tests_cant": "every value of every type", "anchors": ["api/call/link.go:compile", "api/call/call.go:platform.Call"]}
{"id": "C124", "title": "The published document is complete", "statement": "rest: the schemas of the published OpenAPI document are made in finite time for every set of types, including types that refer to themselves, and every reference in them is to a schema of the document.", "quantifier": "every set of defined types, recursive or not", "why_tests_cant": "type graphs are unbounded and cyclic", "anchors": ["api/rest/docs.go:schemaFor", "api/rest/docs.go:addFieldsToSchema", "api/internal/oas/oas.go:Document.Lookup", "api/internal/oas/oas.go:Document.Register"]}
{"id": "C125", "title": "What is sent validates", "statement": "rest: the JSON of every value of a documented type is valid against the schema published for that type.", "quantifier": "every type and every value of it", "why_tests_cant": "types and values nest without bound", "anchors": ["api/rest/docs.go:schemaFor", "api/rest/docs.go:addFieldsToSchema", "api/rest/docs.go:namespaceName"]}
{"id": "C126", "title": "The document is of the API that is served", "statement": "rest: every function that is served and not hidden is in the document at its path and method, with all its path, query and body parameters and its results, and nothing else is in the document.", "quantifier": "every structure of functions and tags", "why_tests_cant": "any set of tags", "anchors": ["api/rest/docs.go:oasDocumentOf", "api/rest/docs.go:addFunctionTo", "api/rest/docs.go:operationFor", "api/rest/rest.go:specification.loadOperation"]}
{"id": "C127", "title": "Escape questions are answered from the whole graph", "statement": "zgo: whatever was marked, linked and asked before and in whatever order, asking whether a variable escapes ends, and the answer is yes exactly when the variable is connected, by any chain of links, with a node that was marked as a route of that kind; asking does not change later answers.", "quantifier": "every history of marks, links and questions", "why_tests_cant": "graphs with cycles of any size, and the answers are cached while the graph grows", "anchors": ["zgo/internal/escape/analysis.go:graph.get", "zgo/internal/escape/analysis.go:graph.Route", "zgo/internal/escape/analysis.go:graph.Together", "zgo/internal/escape/analysis.go:plan.route", "zgo/internal/target/zigc/allocations.go:Target.StackAllocated"]}
{"id": "C128", "title": "What is put on the stack stays there", "statement": "zgo: the storage of a variable that the zig target allocates on the stack is never referred to from outside of its function: it is not returned, not handed to a call and not reachable from a variable of the package or from what a parameter refers to.", "quantifier": "every program and every execution of it", "why_tests_cant": "programs and their executions are unbounded", "anchors": ["zgo/internal/escape/scanner.go:graph.RoutesForStatement", "zgo/internal/escape/relation.go:graph.RoutesForExpressionSelector", "zgo/internal/escape/analysis.go:graph.RoutesForStatementAssignment", "zgo/internal/escape/analysis.go:graph.RoutesForFunctionCall", "zgo/internal/escape/scoping.go:isOuterScopeTo"]}
{"id": "C129", "title": "Compiled expressions mean what they mean in Go", "statement": "zgo's zig target: an expression the target translates and Zig accepts has, in every environment, the value it has in Go, and it panics exactly when Go would; the operators of Go keep their grouping in Zig.", "quantifier": "every expression the Go grammar has over variables, literals, operators, indexing and calls of the builtins, and every environment", "why_tests_cant": "expressions nest without bound, and the two languages disagree on the precedence of their operators and on overflow", "anchors": ["zgo/internal/target/zigc/expressions.go:Target.ExpressionBinary", "zgo/internal/target/zigc/expressions.go:Target.ExpressionUnary", "zgo/internal/target/zigc/expressions.go:Target.Parenthesized"]}
{"id": "C130", "title": "Compiled statements do what they do in Go", "statement": "zgo's zig target: a function body the target translates and Zig accepts prints, in every starting state and for any number of iterations of its loops, the lines the Go program prints, leaves the same values in the variables and ends in the same way; it may only stop earlier, where a calculation overflows.", "quantifier": "every function body made of assignments, definitions, blocks, if, for, range, switch, break, continue, return and println, every starting state, any number of iterations", "why_tests_cant": "statements nest without bound, loops run without bound, and the two languages disagree on what break leaves and what a label labels", "anchors": ["zgo/internal/target/zigc/statements.go:Target.Statement", "zgo/internal/target/zigc/statements.go:Target.SwitchCaseClause", "zgo/internal/target/zigc/loops.go:Target.StatementFor", "zgo/internal/target/zigc/branches.go:Target.StatementSwitch", "zgo/internal/target/zigc/assignment.go:Target.StatementAssignment"]}
{"id": "C131", "title": "Literals keep their value", "statement": "zgo's zig target: every literal of a Go program, whatever its base, underscores, leading zeros or escapes, is printed as a Zig literal of the same value; where there is none the target does not print another value.", "quantifier": "every integer, rune and (ASCII) string literal, every decimal float and imaginary literal", "why_tests_cant": "the literals of Go are infinitely many, in four bases with underscores and leading zeros, and the two languages disagree on leading zeros, prefixes, periods and escapes", "anchors": ["zgo/internal/target/zigc/constants.go:Target.Literal"]}
{"id": "C132", "title": "Names keep their meaning without shadowing", "statement": "zgo's zig target: Zig has no shadowing, so shadowed names are renamed; in every program each name refers in Zig to the declaration it refers to in Go, and no declaration clashes with another.", "quantifier": "every package of declarations and every function body with any nesting of scopes, names declared before and after their uses, predeclared names and imports", "why_tests_cant": "scopes nest without bound and a name may be declared again in any of them, before or after the other declarations", "anchors": ["zgo/internal/parser/parser.go:loadIdentifier", "zgo/internal/target/zigc/definitions.go:Target.definedVariable", "zgo/internal/target/zigc/definitions.go:Target.DefinedFunction", "zgo/internal/target/zigc/definitions.go:Target.DefinedConstant", "zgo/internal/target/zigc/function.go:Target.FunctionDefinition"]}
{"id": "C133", "title": "Plain text bodies arrive", "statement": "rest, text/plain: the argument or result one side writes as plain text is the value the other side reads, or the reader reports an error; it is never another value.", "quantifier": "every string, every signed and unsigned integer of every width, booleans, values that marshal their own text and slices", "why_tests_cant": "strings and integers are unbounded; what arrives depends on every byte of the text", "anchors": ["api/rest/mime.go:contentTypes"]}
{"id": "C134", "title": "Forms hold every field once", "statement": "rest, multipart/form-data: the form has one field for each text in the value, under the path of its fields joined with periods, has no other fields and no name twice; fields marked omitempty or omitzero are left out when zero.", "quantifier": "every nesting of structs and pointers, every tag, and the map of the arguments of a function", "why_tests_cant": "values nest without bound and names depend on tags at every level", "anchors": ["api/rest/mime.go:multipartEncoder.encode", "api/rest/mime.go:multipartEncoder.Encode"]}
{"id": "C135", "title": "A traced error keeps its message and every place", "statement": "xray: wrapping an error with New or Error keeps its message, nil stays nil, and printing it gives the message and every place it was wrapped at, the first one first, none lost, added or merged.", "quantifier": "every error, wrapped any number of times, also with other wrappers in between", "why_tests_cant": "chains of wrappers are unbounded and may mix kinds of wrappers", "anchors": ["api/xray/errs.go:New", "api/xray/errs.go:Error", "api/xray/errs.go:errorWithTrace.Format", "api/xray/errs.go:errorWithTrace.Error"]}
{"id": "C136", "title": "Registered errors decide the response", "statement": "api: every case of a registered Error type is a scenario with its name, text and tags; an error that is, or wraps however deeply, a registered case is answered with the status and text of that case, other errors are not affected.", "quantifier": "every list of registered types and cases, every error and every chain of wrappers around it", "why_tests_cant": "the number of types, cases and wrappers is unbounded", "anchors": ["api/err.go:Register.addToStructure", "api/err.go:errorMethods.StatusHTTP", "api/rest/host.go:handle", "xyz/tagged.go:taggedMethods.Reflection"]}
{"id": "C137", "title": "Serving under Deno", "statement": "rest, compiled for JS under Deno: the handler reads the body the client sent, whatever its chunks and whatever the buffers it reads with, and the client gets the response of the handler.", "quantifier": "every sequence of chunks, ended or failing, every sequence of buffer sizes, and every response", "why_tests_cant": "bodies arrive in chunks of any sizes and are read with buffers of any other sizes", "anchors": ["api/rest/host_js.go:ListenAndServe", "api/rest/host_js.go:jsReadableStream.Read"]}
{"id": "C138", "title": "Callbacks call their function", "statement": "call: a Back made from a Go function can be given to C, and each call C makes through it runs that function once with the arguments C passed and returns its result to C.", "quantifier": "every function signature, every arguments, every history of callbacks made", "why_tests_cant": "signatures, values and the number of callbacks are unbounded, and callbacks may be made concurrently", "anchors": ["api/call/back.go:Back.Set", "api/call/back.go:newSignature", "api/call/back.go:sigRune", "api/call/back.go:newCallback", "api/call/dyncall_vm.go:NewCallback", "api/call/dyncall.go:bridge_callback"]}
{"id": "C139", "title": "The JavaScript client requests the operations of the API", "statement": "rest: the JavaScript client served for an API has, at the elements of the path of each operation, a function of the name of its method that requests that method and path and gives the response to its caller.", "quantifier": "every set of operations, in whatever order Go visits its maps, and every status", "why_tests_cant": "the tree of paths is unbounded and maps are visited in any order", "anchors": ["api/rest/code.go:sdkFor", "api/rest/code.go:node.addItem", "api/rest/code.js:wrap"]}
{"id": "C140", "title": "Examples show what happened", "statement": "api/rest: the page of an example shows its notes and the calls it makes itself, in the order they happened, up to a panic if there is one; calls made by the functions it calls, and calls while setting up, are not shown.", "quantifier": "every example: any nesting of notes, calls, calls within calls, set up and panics", "why_tests_cant": "examples are arbitrary programs", "anchors": ["api/doc.go:Documentation.Example", "api/doc.go:TestingFramework.Guide", "api/doc.go:TestingFramework.Setup", "api/doc.go:Example.trace", "api/rest/host.go:Handlers"]}
{"id": "C141", "title": "The sequence diagram of an example", "statement": "rest: the diagram on the page of an example has one arrow for each call that is not of the set up, from its caller to the API called, in order.", "quantifier": "every example with any nesting of calls", "why_tests_cant": "calls nest to any depth", "anchors": ["api/rest/host.go:Handlers", "api/doc.go:Example.trace"]}
{"id": "C142", "title": "Handlers yields the endpoints of the API", "statement": "rest: Handlers yields each operation of the API once, under its method and path with the parameters in the format asked for (and the remainder format for remainders), no pattern twice, and a Handler serves each operation by its function.", "quantifier": "every API, in whatever order Go visits its maps, every format", "why_tests_cant": "maps are visited in any order, and APIs are unbounded", "anchors": ["api/rest/host.go:Handlers", "api/rest/host.go:attach", "api/rest/host.go:Handler"]}
{"id": "C143", "title": "Compiled calls", "statement": "zgo: a compiled call evaluates its function, receiver and arguments once and in the order of Go, calls the same function with the same arguments (those of a variadic parameter in one slice), and gives its result; a go statement starts it without waiting.", "quantifier": "every expression of calls: functions, function values, methods and interface methods, any nesting, any arguments, whatever the functions called do", "why_tests_cant": "programs are unbounded, and what the functions do may depend on every call before", "anchors": ["zgo/internal/target/zigc/function_call.go:Target.FunctionCall", "zgo/internal/target/zigc/function_call.go:Target.StatementGo", "zgo/internal/target/zigc/build_runtime.zig:variadic", "zgo/internal/target/zigc/build_runtime.zig:func"]}
{"id": "C144", "title": "Queries mean what they say", "statement": "sql: a condition built from pointers into the key and the value (Index, Where, Match, Empty, Avoid, Cases, Merge) is sent to a database as an expression that holds of exactly the rows whose record satisfies the condition.", "quantifier": "every key and value type, every depth of nesting of structs and arrays, every pointer, condition and record", "why_tests_cant": "types nest without bound and conditions are trees; the column a pointer stands for is computed by two separate walks over the type", "anchors": ["sql/map.go:sentinal.walk", "sql/map.go:Map.open", "sql/sql.go:Index", "sql/sql.go:Where", "sql/sql.go:Match", "sql/sql.go:Empty", "sql/sql.go:Cases", "sql/sql.go:Merge", "sql/std/sodium/sql.go:Expression"]}
{"id": "C145", "title": "Patches change what they name", "statement": "sql: a patch changes, in each row, exactly the columns of the parts of the value it sets, to the values it gives.", "quantifier": "every value type, every list of parts set in order, overlapping or not, and every record", "why_tests_cant": "parts nest without bound and may overlap", "anchors": ["sql/sql.go:Set", "sql/map.go:sentinal.walk", "sql/sql.go:columnsOf"]}
{"id": "C146", "title": "A map over a database is a map", "statement": "sql: over a database that follows the SODIUM standard, Insert, Set, Add, Lookup, Get, Search, First, Delete, UnsafeDelete, Update and Mutate act on the table as the operations of a finite map from keys to values.", "quantifier": "every table content, key, value, query, check and patch", "why_tests_cant": "all contents and queries; each operation composes the query compiler, the row codec and the database", "anchors": ["sql/map.go:Map.Insert", "sql/map.go:Map.Lookup", "sql/map.go:Map.Search", "sql/map.go:Map.Delete", "sql/map.go:Map.UnsafeDelete", "sql/map.go:Map.Update", "sql/map.go:Map.Mutate", "sql/map.go:Map.Add", "sql/map.go:Map.First"]}
{"id": "C147", "title": "Results and counts are exact", "statement": "sql: NewResult turns a scanned row into the values of its columns, one each in order; Count gives the number the database answered, or a mark that it does not fit the counter.", "quantifier": "every table, every scanned row, every count and counter type", "why_tests_cant": "all types and all 64-bit counts", "anchors": ["sql/sql.go:NewResult", "sql/sql.go:NewOutput", "sql/sql.go:newPointerFor", "sql/sql.go:Count", "sql/map.go:Map.Count"]}
{"id": "C148", "title": "Manage is a transaction", "statement": "sql: the operations a function makes inside Manage are committed together when it returns nil, and not at all when it returns an error; calls may nest.", "quantifier": "every number of operations, nesting depth and outcome of the function", "why_tests_cant": "any number of operations; the damage is a panic or a wait in rare combinations", "anchors": ["sql/map.go:Map.Manage", "sql/map.go:Map.manage", "sql/map.go:Map.Insert", "sql/std/sodium/sql.go:Database"]}
{"id": "C149", "title": "Channels of compiled programs", "statement": "zgo: however the goroutines of a compiled program are scheduled, a channel hands on the values sent in order, each once, to the receivers; nobody waits for ever, and nothing panics, unless that may happen in Go.", "quantifier": "every number of goroutines, every sequence of sends and receives each makes, every capacity and every interleaving", "why_tests_cant": "interleavings: a lost wakeup or a stolen value needs one schedule of many", "anchors": ["zgo/internal/target/zigc/build_runtime.zig:chan", "zgo/internal/target/zigc/statements.go:Target.StatementSend", "zgo/internal/target/zigc/expressions.go:Target.AwaitChannel", "zgo/internal/target/zigc/builtins.go:Target.make"]}
{"id": "C150", "title": "Types of compiled programs", "statement": "zgo: different types of a Go program are different types of the compiled program, identical ones are the same type, every type of a valid program has one, and reflection answers the name and kind of the type asked about.", "quantifier": "every type of Go, nested however deep, every package compiled and every package its types come from", "why_tests_cant": "types nest without bound; a collision needs two particular types in one program", "anchors": ["zgo/internal/target/zigc/types.go:Target.TypeOf", "zgo/internal/target/zigc/types.go:Target.ReflectTypeOf", "zgo/internal/target/zigc/build_runtime.zig"]}
{"id": "C151", "title": "Cross-origin requests", "statement": "A script of another origin gets the answer of a function of a hosted API exactly if the rules the API's authenticator gives for that function allow it: preflights and answers carry those rules, and nothing else carries or overrides them.", "quantifier": "every authenticator, every API, every request a browser can make, every order the operations are visited in", "why_tests_cant": "the rules are a function of request and function; browsers, caches and map order decide what becomes of them", "anchors": ["api/rest/host.go:addCORS", "api/rest/host.go:attach", "api/cors/cors.go:Authenticator"]}
{"id": "C152", "title": "Clients that add headers", "statement": "rest.Header and the clients with headers add the given headers to every request, change nothing else, leave the caller's request as it was, and give the headers to nobody but the host called.", "quantifier": "every set of headers, every request, every behaviour of the servers including redirects", "why_tests_cant": "what the servers answer is chosen by others; redirect chains are unbounded in their choices", "anchors": ["api/rest/link.go:Header", "api/rest/link.go:addHeaderToRequest.RoundTrip", "api/internal/http/auth.go:ClientWithHeaders"]}
{"id": "C153", "title": "Slices of compiled programs", "statement": "A program compiled by zgo that makes slices, appends to them, copies, clears and reads them prints what Go allows it to print and panics where Go has it panic, however slices share their elements and wherever memory was left.", "quantifier": "every program of such statements, every choice of how much room append leaves, every content of unwritten memory", "why_tests_cant": "how much room there is, where memory can grow and what it contains is chosen at run time by the allocator; sharing shows only in some of those choices", "anchors": ["zgo/internal/target/zigc/build_runtime.zig:slice", "zgo/internal/target/zigc/build_runtime.zig:append", "zgo/internal/target/zigc/build_runtime.zig:copy", "zgo/internal/target/zigc/builtins.go:make"]}
{"id": "C154", "title": "Assignments of compiled programs", "statement": "An assignment in a program compiled by zgo, to variables, to what pointers point to and to elements of maps, with one target or several, with = or an operator, leaves memory as Go says or panics as Go says; and slicing an array takes the elements Go takes.", "quantifier": "every assignment that compiles, every memory, every bounds and length of arrays", "why_tests_cant": "which cells pointers share, which keys are present and what is nil is known only at run time, for any number of targets", "anchors": ["zgo/internal/target/zigc/assignment.go:StatementAssignment", "zgo/internal/target/zigc/expressions.go:ExpressionSlice", "zgo/internal/target/zigc/build_runtime.zig:pointer", "zgo/internal/target/zigc/build_runtime.zig:smap"]}
{"id": "C155", "title": "Deferred calls of compiled programs", "statement": "A function compiled by zgo makes its deferred calls as Go does: in the reverse order, with the arguments they had at the defer statement, however the function ends, and returns what it returned before them.", "quantifier": "every function of such statements, every behaviour of the functions it calls, every value of the variables", "why_tests_cant": "which deferred calls are pending where a function ends, and what their arguments have become, depends on values and on what is called", "anchors": ["zgo/internal/target/zigc/statements.go:StatementDefer", "zgo/internal/target/zigc/function.go:FunctionDefinition"]}
{"id": "C156", "title": "A search that says nothing has told everything", "statement": "sql: when a loop over Map.Search of a database ends by itself and left no issue, it has seen every entry that matches, in order; Lookup and First that answer no entry and no error mean that there is none; Count answers the failure of its job.", "quantifier": "every table, every order of the moves of the database and of the loop, every failure and cancellation at any point, every decoding of rows", "why_tests_cant": "the database fills the channel on its own while the loop empties it; whether and when it fails, and how far ahead it is, depends on the schedule", "anchors": ["sql/map.go:Search", "sql/map.go:First", "sql/map.go:Lookup", "sql/map.go:Output", "sql/std/sodium/sql.go:Database"]}
{"id": "C157", "title": "Composite literals of compiled programs", "statement": "zgo: the literals of arrays, slices, maps and structs of a Go program are translated, and what is translated has the value, and makes the calls in the order, that Go says.", "quantifier": "every literal Go's type checker admits, of any nesting, size and keys, every behaviour of the calls in it, panics included", "why_tests_cant": "literals nest without bound and their elements may be calls whose order and panics decide the value", "anchors": ["zgo/internal/target/zigc/composite.go:DataComposite", "zgo/internal/target/zigc/expressions.go:ExpressionKeyValue", "zgo/internal/parser/data.go:loadDataComposite"]}
{"id": "C158", "title": "Range loops over slices of compiled programs", "statement": "zgo: a range loop over a slice of a Go program is translated; the compiled loop makes as many rounds as Go's, reads its elements when Go does, whatever the body does to the slice and its array, and is left and gone on with by break and continue, labelled or not, as in Go.", "quantifier": "every nesting of loops, ifs, breaks and continues, every body that appends to, clears, copies or assigns the slice it is over, every number of rounds", "why_tests_cant": "what a round sees depends on the writes of all rounds before it, through any alias of the slice", "anchors": ["zgo/internal/target/zigc/loops.go:StatementRange", "zgo/internal/parser/statements.go:loadStatementRange", "zgo/internal/target/zigc/build_runtime.zig:slice"]}
{"id": "C159", "title": "Arrays and slices of them in compiled programs", "statement": "zgo: a slice of an array in a compiled program shares the array as in Go: what is written through one is seen through the other, slicing past the end panics, and append does what Go does.", "quantifier": "every program of statements about arrays and slices, any number of slices of one array, every length and every history of writes", "why_tests_cant": "whether two slices share memory depends on the whole history of slicing and appending", "anchors": ["zgo/internal/target/zigc/expressions.go:ExpressionSlice", "zgo/internal/target/zigc/expressions.go:ExpressionIndex", "zgo/internal/target/zigc/build_runtime.zig:pointer", "zgo/internal/target/zigc/build_runtime.zig:append"]}
{"id": "C160", "title": "Fields of structs of compiled programs", "statement": "zgo: a selector in a compiled program, on a variable, a field or a promoted field of an embedded struct, reads and writes the field that Go's selector rules give, and copies of structs are independent.", "quantifier": "every struct type of any nesting and embedding depth, every selector chain Go admits, every sequence of assignments, copies and prints", "why_tests_cant": "which field a promoted selector means depends on the whole embedding tree, not on the one example tested", "anchors": ["zgo/internal/parser/parser.go:loadSelection", "zgo/internal/target/zigc/zigc.go:Selection", "zgo/internal/target/zigc/assignment.go:StatementAssignment"]}
{"id": "C161", "title": "Interfaces of compiled programs", "statement": "zgo: in a compiled program a method called on an interface is that of the type that was put into it, called on the value as it was when it was put there, whatever happened to the variable since; a type is put into an interface exactly as in Go, by conversion, declaration or assignment, with its own and its promoted methods.", "quantifier": "every set of types with any methods and any embedding, every set of interfaces, every sequence of conversions, copies, assignments and calls, whatever the methods do", "why_tests_cant": "which method is called depends on the whole history of the interface variable; the test has one empty struct with one method", "anchors": ["zgo/internal/target/zigc/function_call.go:Target.FunctionCall", "zgo/internal/target/zigc/function.go:Target.FunctionDefinition", "zgo/internal/target/zigc/definitions.go:Target.TypeDefinition", "zgo/internal/target/zigc/definitions.go:Target.VariableDefinition", "zgo/internal/target/zigc/build_runtime.zig:interface"]}
{"id": "C162", "title": "The forms of a resource", "statement": "rest: a browser at the path of a resource gets a page with one form for each of its operations, the schema asked for a form has one property for each body argument of the operation, under the name and of the type it is sent with, and asking for a form neither runs an operation nor tells anything of one that the request is not authorised for; every other request runs the operation.", "quantifier": "every resource with any operations, arguments and rules, every request, whatever the authorisation says", "why_tests_cant": "resources, arguments and rules are unbounded, and the answer depends on which other operations the resource has", "anchors": ["api/rest/form.go:formHandler.ServeHTTP", "api/rest/host.go:attach", "api/rest/rest.go:specification.loadOperation", "api/rest/rest.go:parser.parseBody"]}
{"id": "C163", "title": "println of compiled programs", "statement": "zgo: println in a compiled program prints the text that it prints in Go: its arguments, whatever they are, with spaces between them and a newline.", "quantifier": "every list of arguments of any length and types, every text in them, braces included", "why_tests_cant": "the format is put together from the types of the arguments and read again by Zig, for any number of them", "anchors": ["zgo/internal/target/zigc/builtins.go:Target.println", "zgo/internal/target/zigc/build_runtime.zig:println"]}
{"id": "C164", "title": "Instructions written by their tags", "statement": "jit: an instruction is written as its tag says: the bits of each byte in order, a letter as the next bit of its argument, brackets as the lowest bits of it or as whether the comparison holds.", "quantifier": "every tag of any number of bytes, every arguments", "why_tests_cant": "where the bits of an argument go depends on how often its letter occurs in the whole of the tag, and on what the argument is", "anchors": ["api/call/internal/bin/bin.go:link"]}
