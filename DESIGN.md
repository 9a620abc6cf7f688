# A formal model of iqhive/runtime.link in Rocq

## 1. Approach

The repository is a collection of mostly independent Go packages. Each package that
has a logical core is modelled by a group of Coq files:

* `XModel.v`  – executable Gallina functions, one per Go function, each with a comment
  citing file and lines; no proofs.
* `XSpec.v`   – small independent specifications (written without looking inside the
  model's helpers) and the predicates that appear in theorem statements.
* `XProofs.v` – lemmas.
* `XProps.v`  – only the property theorems (`exact lemma.` + `Print Assumptions`) and the
  concrete non-vacuity examples.

Conventions: Go `panic` is an explicit outcome (`Panic`), errors are values, fixed width
integers are `N`/`Z` with the wrap-around written into the model where the code can reach
it, byte = `N` below 256, strings/slices are lists. Concurrency is a transition system over
explicit atomic steps with an arbitrary number of threads.

When the code violates the property as a user would state it, the theorem
`..._refuted` exhibits a concrete witness on the faithful model, and `..._partial` proves
the property on the largest domain on which it holds. The MANIFEST then says `partial`.

## 2. Plan per property

Every property of properties.jsonl can be expressed in the model; none is marked
not_applicable. What a row leaves out is in section 4 and in the notes of MANIFEST.json.

| id | model | proof |
|----|-------|-------|
| C01-C03 | unrolled varint writer/reader of pb.go on byte lists with the explicit 64-bit wrap | case split on 7-bit ranges; independent LEB128 spec; equality with spec for all inputs |
| C04 | zig-zag with two's complement shifts | arithmetic on Z, both directions |
| C05-C07 | tags, fixed, bytes | corollaries of C01 plus bounds |
| C08 | consumeFieldValueD with its recursion depth and group loop | fuel = input length, fuel shown sufficient, bounds by induction |
| C09 | appendGroup/consumeGroup, including stripping of denormalised end markers | induction on well-formed field trees |
| C10-C12 | sizeof/encode over a universe of Go values (inductive, nested) | structural induction; map case refuted; reference decoder for C12 |
| C13-C17 | the lock-free list as a transition system: every atomic load/CAS/store is one step, any number of threads | inductive invariant: node order, only cancelled nodes are skipped; history variables for deliveries |
| C18-C23 | heap of blocks with prv/nxt links, revision words with pin/refcount bits, block and root pools | invariants over operation histories; refutations by computation |
| C24-C25 | array = 16 byte buffer + bit length; Go copy / slice bounds explicit | list lemmas; refutations |
| C26-C28 | sync.Map as association list; database as oracle with an error schedule | refinement to partial map |
| C29-C33 | ram table, conditions as booleans, enumeration order as a parameter; sort.Slice insertion sort for small n | refinement, list induction; refutations |
| C34-C36 | inductive universe of column types | structural induction |
| C37-C43 | xyz containers; encoding/json is an oracle with a stated round-trip assumption (section variables) or a concrete abstract JSON value type | induction over case lists |
| C44-C49 | byte-level encoder and decoder with its 256-byte segment | induction over strings with a UTF-8 decoder; refutations for chunking |
| C50-C51 | frame header writer/reader | case split on length; mask refutation |
| C52-C53 | mux trie | induction over paths and route tables |
| C54 | tag splitting on strings | induction over strings |
| C55-C57 | handle table with typed keys; flattening | invariants, structural induction |
| C58-C60 | via, rpc | direct |
| C61 | the list of C13-C17 | invariant: deliveries of one Send are a subsequence of the registration order, all of them if none is cancelled |
| C62 | Encoder over a writer with an error schedule | case split |
| C63, C64 | heap of C18 | refuted by a history that any caller can write |
| C65 | transition system: each goroutine at a program point, table and mutex shared | linearisation points, invariant over all schedules; refutation by a schedule |
| C66-C68 | the table of C29 and statistics as folds | list induction; Sum refuted |
| C69 | columnsOf with names as strings | structural induction, refutation for the doubled path |
| C70, C82 | websocket reading loop over byte lists | induction over frames; refutations for all text frames |
| C71, C73 | the client of a channel result up to the reflect call | refutation; the reading loop by induction over lines |
| C72 | the streaming responder as a list of writes | induction over results; JSON a parameter without newlines |
| C74 | the not-found path of the trie | induction over paths, refutation |
| C75 | the tag grammar: components printed then parsed | induction over components |
| C76-C79 | the client that fills a path and query, and the server that reads them back, composed | composition of two parsers through an independent URL spec |
| C80 | kvs iterator over the opened database | direct |
| C81 | heap of C18 with contents | invariant; restricted histories |
| C83, C84 | decoder on any JSON string spelling (independent grammar) and any integer text | induction over the grammar; congruence modulo the width |
| C85 | sync.Map of accessors with two racing first calls | invariant; refuting schedule |
| C86-C88 | handle table with typed cells, foreign calls as table lookups | history induction |
| C89 | schema as a list of registered names | direct |
| C90 | tag options and emptiness of Go values | case split, refutations |
| C91, C92 | each amd64 method as the bytes it appends; an independent instruction decoder | exhaustive over registers by computation inside the proof, induction over programs |
| C93, C94 | each arm64 method as a 32-bit word; fields of the manual as an independent spec; bitmask immediates over 64-bit numbers | bit-level lemmas for all operands; exact set of accepted immediates |
| C95 | the recording of errors | direct, refutation |
| C96, C97 | mapping tables over struct fields as trees of values | induction over the mapping; refutations |
| C98-C103 | cmdl: tags split into words, argument vectors, options structs, result scanning; the process is a parameter (its output and how much of it was seen) | induction over words; refutations |
| C104, C105, C107 | Go functions as Gallina functions on value lists; API structs as trees, with append's sharing of arrays explicit | structural induction; refutation at depth four |
| C106 | doc text as lines | list induction |
| C108 | host: authenticator, redaction and handlers as calls in a trace | case analysis of the trace |
| C109, C110 | client and server joined by status, headers and body; JSON a parameter with a stated round trip | case analysis, composition |
| C111 | xray as a list in a context, with the mutex as steps | history induction, refuting schedule |
| C112 | readers as streams of chunks and an end (EOF or failure) | induction over chunks |
| C113 | formats as separators and arguments; map order is a permutation | ranking lemma; induction over arguments |
| C114 | objects as trees of fields with checks | structural induction |
| C115-C117 | wasm values flattened into words; runner as a state machine | structural induction; history induction |
| C118, C119 | the tag scanner and parser over bytes; `show` is an independent printer | induction over the syntax tree; well-formedness of every accepted tag |
| C120 | the nested loops over names and libraries | list induction, exact characterisation |
| C121-C123 | the JIT's choice of registers and stack slots, the System V classes as spec | induction over signatures |
| C124-C126 | types as a graph with named recursive types; JSON schema with an independent validator | termination measure (names not yet visited); induction on values |
| C127 | union-find like relation of marks and links | exact: an answer is reachability |
| C128 | programs with a heap and frames; the marks of the scanner | invariant over executions; refuting programs |
| C129 | Go expressions, the printer of the target, Zig's grammar (precedence climbing) and semantics | printer/parser induction through both grammars |
| C130 | the same for statements: labels, loops, switches; big-step with fuel | simulation; fuel shown sufficient |
| C131, C132 | literals: both lexers; names: scopes as stacks | induction over digits; induction over scopes |
| C133, C134 | text and form codecs of mime.go | list induction; refutations |
| C135, C136 | chains of error wrappers | induction over chains |
| C137 | Deno bridge: chunks of a body and response records | induction over chunks; refutations |
| C138 | callback argument classes and a table of callbacks | induction over signatures and histories |
| C139 | JavaScript printed as statements with an interpreter for the used subset | induction over the operations; any map order |
| C140, C141 | example recorder as a program of guide/setup/call acts; Go's slice capacity explicit | mutual induction over programs |
| C142 | Handlers as the list of patterns it yields, in any map order | permutations; refutations of uniqueness |
| C143 | calls printed and read through the suffix grammar of Zig, both sides run over a history of calls whose results are arbitrary | mutual induction over expressions and argument lists; reading with monotone fuel |
| C144-C147 | tables, queries and edits of sql as terms with pointers into sentinels; a reference database that keeps rows and answers as sodium documents | the walk of a record by induction over types and values; conditions by induction over queries; operations by simulation with a map of keys to values |
| C148 | transactions as the messages a channel of the driver gets | case analysis over operations; refutations for all second operations |
| C149 | Zig's channels as a transition system of any number of goroutines, each a program of sends and receives | invariants over all schedules, a decreasing measure; refinement of Go's channels where the buffer never fills; refutations by schedules |
| C150 | types as terms, their Zig text as tokens | mutual induction: texts are prefix-free, so equal texts are alike types |
| C151 | headers of the answers of host.go; the browser's side of CORS as specification | the serving lemmas of C142, lookup in headers, boolean case analysis |
| C152 | the added headers between net/http's redirects | induction over the chain of redirects; refutation for every server that redirects |
| C153 | heap of arrays and slices, Go's and the runtime's steps as relations | simulation between the two heaps; refinement to lists for programs that share nothing; refutations by runs |
| C154 | the pieces an assignment is emitted as, and what each does to memory; Go's two phases as a relation | case analysis over targets, both directions; refutations for all operands |
| C155 | statements with defers, run once with values kept and once with expressions kept | mutual induction over statements; the pending calls related pairwise |
| C156 | the database and the loop over its channel as one transition system, schedules as lists of moves | induction over schedules with an invariant that ties what was seen, what is in the channel and what is not sent to the rows that match; a measure for the end of the loop |
| C157 | literals as terms, their Zig text as terms; Zig's demands on literals as a decision | mutual induction over literals: what is printed evaluates step by step as Go does, and is accepted exactly when the literal is written in full |
| C158 | the statements of C153 in range loops, ifs, breaks and continues; the copy of the slice a loop is over is a variable of odd number | mutual induction over runs, carrying C153's relation between the memories; a labelled break as counterexample |
| C159 | C153's memory with arrays as full slices; what range gives has no capacity | three relations one after the other: capacity raised to length, C153's relation, room nobody appends to |
| C160 | struct types as trees, selectors with the index go/types gives; the parser's path by positions; Zig's lookup by name | induction over reachability of fields; the path agrees with the index exactly when it is 0, 1, 2, ... |
| C161 | types with methods and what is embedded in them, interface variables, conversions, copies and calls; an interface value in Zig as an address of a copy and a table of functions; what the printer and Zig refuse | a simulation between Go's and Zig's states with a heap that only grows, and an exact characterisation of what is accepted |
| C162 | resources as operations by method, loading of rules, the page of forms, the schema of a form, and which requests get them | induction over arguments and rules; the page as what the order of methods picks |
| C163 | the format that println is compiled to, and how std.fmt reads formats (braces, escapes, specifiers, unused and missing arguments, the limit of 32) | induction over the arguments, the format read piece by piece |
| C164 | the writing of an instruction by its tag: letters, brackets, comparisons, bytes, the counts over the whole tag and the two orders | the state between two items (the last letter and its count) against the places before it, by induction over items and words |

## 3. Trusted base

* Coq 8.16.1's kernel (`coqc`), including its `vm_compute` machine for concrete witnesses and
  finite case analyses (no `native_compute`, no plugins of our own, no flags that switch
  off checks).
* The faithfulness of the model to the Go text: every definition of a `*Model.v` file
  cites the file and lines it models and says where it simplifies.
* The specifications: `*Spec.v`, and the definitions directly above the theorems in the files
  without one (protobuf wire format, RFC 8259 strings, RFC 6455 frames, x86-64 and A64
  instruction fields, System V classes, JSON schema validation, the Zig grammar and lexer,
  the CORS protocol, net/http's redirects).
  They are written from the standards, from memory: the sandbox has no network.
* Sequential consistency for `sync/atomic` and `sync.Map` (the Go memory model gives it).
* No axioms. Everything is closed under the global context (section 5). Where a standard
  library or foreign function is a parameter (encoding/json, fmt of floats, sort.Slice, the
  process run by cmdl, the Zig and JavaScript runtimes) it is a section variable or an
  argument, so that the theorem quantifies over it; its contract is a hypothesis in
  the statement, and each such theorem has an instance beside it that meets the contract.
* Libraries: Coq's standard library only. (vcheck's `coqchk` context mentions
  `Coq.ssr.ssrunder.Under_rel`, a module type of the standard library that is loaded with
  it and is in no theorem's assumptions.)

## 4. What is modelled and what is not

Modelled, per package (files cited are under /repo; the Coq files are the prefix given):

| Coq files | Go | left out |
|---|---|---|
| Wire*, Grpc* | api/grpc/pb.go, enc.go | the gRPC transport (there is none in the repository) |
| Qnq* | qnq/qnq.go | weak memory |
| Mmm* | mmm/mmm.go, mmm_fast.go | mmm_slow.go (the build without unsafe), finalisers, several goroutines |
| Bit* | bit/bit.go | |
| Kvs* | kvs/kvs.go | a database behind Open is an oracle |
| SqlRam*, SqlConc*, SqlRow*, SqlDb*, SqlSearch* | sql/ram.go, map.go, sql.go; sodium's value kinds; SqlSearch: the result channel, the job's error and cancellation | contexts elsewhere, an implementation of sodium.Database (/repo has none), Order, Sum over a database, sql/test.go, types with Interface methods |
| Sock*, Mux*, Rest*, Host*, Mime*, Deno*, Sdk*, Docs*, Eg*, Hand*, Cors*, Header* | api/rest: sock, path, rest, host, link, mime, host_js, code, docs; api/internal/rtags, oas, http; api/cors; api/doc.go | HTML of the pages, form.go's markup, multipart bodies, net/http itself |
| Jrpc* | api/jrpc/enc.go, dec.go | floats' digits (strconv is a parameter) |
| Xyz* | xyz/xyz.go, switch, tagged, tuples, duplex | xyz/memory.go, ext.go, unsafe storage layout beyond the capacity rules |
| Ffi* | ffi/src.go, mem.go, api.go, enc.go, dec.go | goroutines; the C side |
| Via*, Rpc* | via/via.go, rpc/rpc.go | |
| Asm*, Arm* | cpu/amd64/asm.go, api.go, gpr.go; cpu/arm64/asm.go, api.go, bit.go | instruction types that are not exported by an API; mapping memory executable |
| Pair*, Data*, Fmts* | api/pair, api/data, api/fmts | reflection on types outside the universe of each model |
| Cmdl* | api/cmdl/link.go, main.go | os/exec: the process is a parameter |
| Api* | api/api.go, tag.go, stub/stub.go | docs tags and embedded structs |
| Xray*, Xerr* | api/xray, api/err.go | runtime.Caller: places are given |
| Wasm* | api/wasm/runner.go, export.go, import_wasm.go | register_allocation.go (not used); wazero |
| Ctag*, Call*, Back* | api/call: link.go, call.go, back.go; internal/ffi/tag.go; internal/jit; internal/cgo generated tables for linux/amd64 | internal/cpu, abi, bin, ffi.go, asm.go (not reached by the exported API on linux/amd64), dlopen itself, other platforms |
| Esc*, Zig* | zgo/internal/escape, parser (as far as cited), target/zigc | go/types, zig itself, generic functions, interfaces of the target's runtime; std of Zig (RingBuffer, Mutex, Condition, ArrayList, ArenaAllocator) is as documented |

Not modelled at all: api/open (bindings to foreign services), api/example, pii, fix,
the generator programs (internal/asmtool, llmtool, gen, generate).

### Where the code does not have the property

A `*_refuted` theorem states, on the model, that the code fails the property on a
concrete or universally quantified input; the `_partial` theorem beside it gives the
largest domain we could prove. The notes in MANIFEST.json say which. There are 390 of them. These
are claims about the pinned commit, read as text; none was run.

## 5. Print Assumptions

For each of the 950 theorems that MANIFEST.json names, `Print Assumptions` answers
"Closed under the global context" (checked by a script over all of them; vcheck checks it too).
The theorems of each property are in these files:

* C01: WireProps.v
* C02: WireProps.v
* C03: WireProps.v
* C04: WireProps.v
* C05: WireProps.v
* C06: WireProps.v
* C07: WireProps.v
* C08: WireProps.v
* C09: WireProps.v
* C10: GrpcProps.v
* C100: CmdlPack.v
* C101: CmdlRun.v
* C102: CmdlRun.v
* C103: CmdlRun.v
* C104: ApiProps.v
* C105: ApiStruct.v, ApiPath.v
* C106: ApiPath.v
* C107: ApiPath.v
* C108: HostProps.v
* C109: HostWire.v
* C11: GrpcProps.v
* C110: HostWire.v
* C111: XrayProps.v
* C112: XrayProps.v
* C113: FmtsProps.v
* C114: DataProps.v
* C115: WasmProps.v
* C116: WasmRun.v
* C117: WasmRun.v
* C118: CtagProps.v
* C119: CtagRun.v
* C12: GrpcProps.v
* C120: CallProps.v
* C121: CallProps.v, CallRun.v
* C122: CallRun.v
* C123: CallRun.v
* C124: DocsProps.v, DocsTerm.v
* C125: DocsValid.v, DocsRun.v
* C126: DocsOps.v
* C127: EscGraph.v
* C128: EscSound.v, EscWrong.v
* C129: ZigExpr.v
* C13: QnqProps.v
* C130: ZigStmtProps.v
* C131: ZigLit.v
* C132: ZigName.v
* C133: MimeText.v
* C134: MimeForm.v
* C135: Xerr.v
* C136: Xerr.v
* C137: Deno.v
* C138: Back.v
* C139: Sdk.v
* C14: QnqProps.v
* C140: Eg.v
* C141: Eg.v
* C142: Hand.v
* C143: ZigCall.v
* C144: SqlDb.v
* C145: SqlDb.v
* C146: SqlDb.v
* C147: SqlDb.v
* C148: SqlDb.v
* C149: ZigChan.v
* C15: QnqProps.v
* C150: ZigType.v
* C151: Cors.v
* C152: Header.v
* C153: ZigSlice.v
* C154: ZigAssign.v
* C155: ZigDefer.v
* C156: SqlSearch.v
* C157: ZigComp.v
* C158: ZigRange.v
* C159: ZigArr.v
* C16: QnqProps.v
* C160: ZigSel.v
* C161: ZigIface.v
* C162: RestForm.v
* C163: ZigPrint.v
* C17: QnqProps.v
* C18: MmmProps.v
* C19: MmmProps.v
* C20: MmmProps.v
* C21: MmmProps.v
* C22: MmmProps.v
* C23: MmmProps.v
* C24: BitProps.v
* C25: BitProps.v
* C26: KvsProps.v
* C27: KvsProps.v
* C28: KvsProps.v
* C29: SqlRamProps.v
* C30: SqlRamProps.v
* C31: SqlRamProps.v
* C32: SqlRamProps.v
* C33: SqlRamProps.v
* C34: SqlRowProps.v
* C35: SqlRowProps.v
* C36: SqlRamProps.v
* C37: XyzProps.v
* C38: XyzProps.v
* C39: XyzProps.v
* C40: XyzProps.v
* C41: XyzProps.v
* C42: XyzProps.v
* C43: XyzProps.v
* C44: JrpcProps.v
* C45: JrpcProps.v
* C46: JrpcProps.v, JrpcReadProps.v
* C47: JrpcProps.v
* C48: JrpcProps.v
* C49: JrpcProps.v
* C50: SockProps.v
* C51: SockProps.v
* C52: MuxProps.v
* C53: MuxProps.v
* C54: RestProps.v
* C55: FfiProps.v
* C56: FfiProps.v
* C57: FfiProps.v
* C58: ViaProps.v
* C59: ViaProps.v
* C60: RpcProps.v
* C61: QnqProps.v
* C62: GrpcProps.v
* C63: MmmProps.v
* C64: MmmProps.v
* C65: SqlRamProps.v
* C66: SqlRamProps.v
* C67: SqlRamProps.v
* C68: SqlRamProps.v
* C69: SqlRowProps.v
* C70: SockProps.v
* C71: SockProps.v
* C72: SockProps.v
* C73: SockProps.v
* C74: MuxProps.v
* C75: RestProps.v
* C76: RestProps.v
* C77: RestProps.v
* C78: RestProps.v
* C79: GrpcProps.v
* C80: KvsProps.v
* C81: MmmProps.v
* C82: SockProps.v
* C83: JrpcProps.v
* C84: JrpcProps.v
* C85: XyzProps.v
* C86: FfiProps.v
* C87: FfiProps.v
* C88: FfiProps.v
* C89: RpcProps.v
* C90: JrpcReadProps.v
* C91: AsmProps.v
* C92: AsmProps.v
* C93: ArmProps.v
* C94: ArmBitProps.v
* C95: ArmBitProps.v
* C96: PairProps.v
* C97: PairProps.v
* C98: CmdlProps.v
* C99: CmdlProps.v

## 6. Tests against wrong programs

seeded/LOG.jsonl has one line per edited definition: the edit, the claim that it breaks, the
theorems (or lemmas they rest on) that no longer build, and, where the edit went unnoticed at first, the
theorem that was added or tightened. A line with no failed theorem is an edit that survived; it
is followed by a line for the same edit after tightening, or its note says why it breaks no claim.
