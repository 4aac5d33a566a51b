# Design

Formal model of pomack/thrift4go (Go library `lib/go/src/thrift`, golden generated
code under `tests/generation/golden`, naming/dispatch parts of
`compiler/cpp/src/generate/t_go_generator.cc`) in Rocq (Coq 8.16.1).

## Modelling conventions

* Go integers are `Z` with explicit wrap-around (`wrapu n`, `wraps n`) wherever Go
  converts; bytes are `Z` in 0..255; strings and `[]byte` are `list Z`;
  `float64` values are their 64-bit patterns (`math.Float64bits`).
* A Go call that can return `(v, err)` is a function into
  `outcome (v * option err * state)`; `Panic` is a run-time panic and
  `OutOfFuel` marks exhausted recursion fuel (theorems either exclude it by
  hypothesis on the fuel or prove it cannot happen).
* An input transport is the list of the results its future `Read` calls give:
  data chunks of any size, empty reads, errors, data together with an error.
  An empty list is end of file. So theorems quantify over all chunkings and
  failures.
* An output transport is the bytes accepted so far plus a schedule of write results.
* `TProtocol` is a Gallina record of functions over a state type; code written
  against the interface (Skip, TApplicationException, generated code) is
  polymorphic in that record.
* Concurrency (servers) is a small-step machine; histories are lists of steps.
* Error values keep their class and type id; message texts are dropped.

## Layout

`theories/Base.v`, `Transport.v`, ... hold models (each definition cites file and
lines in /repo); `*Spec.v` hold independent specifications; `*Proofs.v` hold lemmas;
`Prop*.v` hold the property theorems with `Print Assumptions` under each and
a concrete instance next to it. `tools/manifest.py` regenerates `MANIFEST.json` and
`rocq/_CoqProject` from the theory files.

Transports: `Transport.v` (interface, ReadAll), `Buffer.v` (bytes.Buffer), `BufIO.v`
(bufio), `Framed.v`, `MemBuffer.v`, `IOStream.v`, `Socket.v`, `Http.v`, `ServerSocket.v`,
`Server.v`, `Deadline.v` (timeouts of sockets), `Factory.v`. The width of Go's `int` is a parameter where it matters (frame sizes).
bytes.Buffer keeps the read bytes where Go may slide them away (not observable). net and
net/http results are arguments of the operations, quantified in the theorems.

Containers: `GoVal.v` (interface{} values, type predicates, CoerceData), `Compare.v`
(TType.Compare), `TList.v`, `TSet.v`, `TMap.v`, `TField.v`. Floats are bit patterns with the
meaning of Coq's `SpecFloat` (`F64.v`); `strconv.ParseInt`/`FormatInt` and UTF-8 encoding are
written out (`Strconv.v`). Float formatting and parsing, out-of-range float to integer
conversion, Go map iteration order and reflect.DeepEqual are fields of a record `ext` that the
theorems quantify over. Containers inside containers are snapshots: aliasing through pointers
is not modelled. An address that is not positive stands for an object of its own, equal to no
other pointer; objects built by the library or by generated code have address 0. `int` is 64
bits wide here. Structs are compared through AttributeFromFieldId, which gives nil for every
TStruct of the repository (`GenCompare.v`); types that define it themselves are not modelled.

Small values: `Numeric.v` is tnumeric.go and tmessage.go. texception.go (NewTExceptionFromOsError gives
its argument back) and tbase.go (an interface nothing implements) are not modelled. The transport factories
are in `Factory.v`; the processor factories, which give back what they were made with, are not modelled.

Generated files: `ProgFile.v` models ttypes.go and the service files as their imports and
package-level declarations, each with the names it declares, the packages it names and the types and
functions of its own package it uses, and the methods of a client as their variables. Bodies are otherwise not looked at
there (the other files model them); the command-line client is `Remote.v`.
`Layout.v` models where the files go (directories, file names, package clause, import paths) and the
comments printed for documentation; the go tool's rules for file names and import paths are its
specification, and the base class's generate_docstring_comment, which is not in the repository, is
taken to print each line of a text behind a prefix.

Generated code: `Gen.v` is the code t_go_generator.cc emits for structs, exceptions, argument
and result structs, as functions of the IDL type (`ty`), polymorphic in the protocol record.
Typedefs are resolved there; `Typedef.v` has the code emitted for types with typedefs in them, and C106
says when the two agree. Recursive types do not occur. Struct types are taken to be valid Go and to implement thrift.TStruct, which C86 and C87 say
when they do. `GenSpec.v` relates Go values to wire values
without looking at that code: `wireof` (what a value is on the wire), `reads` (what a reader
should build), `rd`/`wr` (what protocol calls deliver or accept a wire value). `GenProofs.v`
proves the emitted reader and writer against them for every protocol, `GenInst.v` shows the
binary and compact protocols are instances, `GenRound.v` that `reads` undoes `wireof` up to
`same` (contents) on the values `kept`.

Services: `AppExc.v` is TApplicationException, `Rpc.v` the generated client (`send_X`, `recv_X`,
constructors) and processor (`Process`, one function per method) for a service given as a list of
method signatures. The handler is an arbitrary function of the arguments and its own state to a
result, a declared exception or another error. `pair` is a client and a server joined by two byte
queues; `feed` and `drain` say how bytes are cut into reads, both quantified. A service that
extends another is a longer method list. `RpcProofs.v` has the specification of a request being
served and answered (`served`, `answered`) and the proofs for every protocol satisfying
`Access.rd`/`wr`. `RpcInv.v` lets a handler keep an invariant of its state. `Tutorial.v` is the tutorial's
service, handler and client; what they print is left out, and its IDL files, which are not in the
repository, are given as the handler's methods and the Thrift distribution have them.
`Serve.v` is TSimpleServer with its factories and processRequest: one connection, from its Reads to the
bytes written, over the processor of `Rpc.v`. Factories give plain or framed transports and binary or
compact protocols. The processor's panics end the connection without a result; accepting connections
and closing them is `Server.v`.

Names: `Names.v` is the name conversion and the enum code of t_go_generator.cc (publicize, privatize,
variable_name_to_go_name, generate_enum). The C++ character functions are those of the C locale, IDL
identifiers have no '.', escape_string is the identity on identifiers, and C++ int overflow while
numbering enum constants is not modelled.

JSON: `BufRead.v` is bufio.Reader with its whole 4096-byte array (Go 1.0 behaviour of Peek, ReadByte,
UnreadByte, Read, ReadBytes), `JsonText.v` the string code of encoding/json and base64, `Json.v` the
two protocols. What encoding/json escapes beyond the JSON minimum, and whether it refuses or replaces
invalid UTF-8, is a record `jstyle` the theorems quantify over; float formatting and parsing come from
`ext`; utf8.DecodeRune is that of Go 1.1; base64 decoding skips CR and LF. `JsonSpec.v` is the RFC 8259
grammar and the text of a value, `BufReadProofs.v` says what reading a known text through the buffer
does (`view`), `JsonWrite.v`, `JsonRead.v`, `JsonReadVal.v`, `JsonForm.v` hold the proofs. `JsonTotal.v`
and `JsonSkip.v` cover reading arbitrary input.

Constants: `Consts.v` is generate_const, render_const_value and the constructor's defaults of
t_go_generator.cc, as functions to syntax trees of Go, and the meaning of those trees. tmp(), the
printing of doubles and get_escaped_string live outside this repository and are a record `cpp` the
theorems quantify over (`cpp_ok` says tmp() never repeats itself and escaping is undone by Go's string
literals). An object reached from a variable is stored in that variable: the code never has two names for
one object.

Protocols over transports: `Over.v` restates both binary-format protocols over any transport; `Het.v`,
`OverSim.v`, `OverInst.v` and `OverRpc.v` relate them to the protocols over plain bytes. `sock_read` in
`OverInst.v` is Read of TSocket and TNonblockingSocket. A client's reading and writing protocol are over
separate transport objects; the two halves of every transport modelled are independent of each other.

## Per property plan

* **C01 Binary scalar round trip.** Binary.v model; round-trip lemma per scalar over every chunked stream.
* **C02 Binary wire layout.** Independent pure encoder in Spec.v (div/mod big-endian); each Write call shown to append exactly that.
* **C03 Binary message envelope round trip.** Binary.v; round trip of the header for the 3 legal mode pairs.
* **C04 Binary strict reader rejects unversioned or wrongly versioned messages.** Binary.v; case analysis on the first word; statement over all inputs.
* **C05 Binary structured value round trip.** Generic value type + generic writer/reader harness (Values.v) over the protocol record; induction on values.
* **C06 Decoding does not depend on how the transport splits reads.** Transport.v: streams are lists of Read results; simulation relation `same content`; every read op respects it.
* **C07 Truncated binary input is always reported.** Prefix induction on the encoder.
* **C08 Skip consumes exactly one binary value.** Skip.v (tprotocol.go Skip) run against the encoder; induction on values.
* **C09 Skip reports input errors.** Expected false (errors ignored inside loops): refuted + strongest true part (scalars); C09_exact gives the exact condition.
* **C10 Skip enforces the configured maximum depth.** Expected false (maxDepth never tested): refuted by nesting deeper than any limit.
* **C11 Malformed lengths never crash a binary reader.** ReadBinary with a negative length panics: refuted; partial: every other operation is total.
* **C12 Skip terminates on every input without panicking.** Fuel-termination: fuel above the number of unread bytes never runs out, no panic.
* **C13 Zigzag coding is a bijection.** Compact.v; bit lemmas.
* **C14 Varint coding round trip and size.** Compact.v; induction on 7-bit groups.
* **C15 Compact scalar round trip.** Compact.v.
* **C16 Compact wire layout.** Spec encoder for compact.
* **C17 Compact field headers round trip.** Compact.v; induction over header sequences.
* **C18 Compact boolean fields round trip.** getTType has no case for 2: refuted; true half proved.
* **C19 Compact field ids survive nested structs.** ReadStructEnd does not pop: refuted; depth <= 2 proved, and the exact condition (CompactExact.v).
* **C20 Compact message envelope round trip.** Type mask 0x03: refuted for ONEWAY; others proved.
* **C21 Truncated compact input is always reported.** ReadBinary drops the ReadAll error: refuted; other scalars proved; CompactCut.v: exactly which cuts of any value are reported.
* **C22 Malformed lengths never crash a compact reader.** make([]byte, negative): refuted; other ops proved.
* **C23 Compact container headers round trip.** Empty map loses types: refuted for it; rest proved.
* **C24 Compact structured value round trip.** Refuted via 18/19; what is read is given for every value (CompactExact.v), with the exact condition for it to be the value written.
* **C25 Skip consumes exactly one compact value.** Same restriction as 24.
* **C26 ReadAll delivers exactly the requested bytes or an error.** (0,nil) read and data+error read: refuted; partial for progress streams.
* **C27 Framed transport preserves the byte stream.** Framed.v state machine; refinement to concatenation of frames. PropPieces.v: Reads over frames against Reads over a transport with one piece per frame.
* **C28 Framed transport framing.** Framed.v; invariant over histories.
* **C29 Framed transport reports broken frames.** Framed.v: Read drops readFrame's error; prove what survives.
* **C30 Memory buffer is a FIFO.** Transport.v queue refinement.
* **C31 Stream transport write/close behaviour.** IOStream.v state machine; empty write panics: refuted; partial.
* **C32 Socket connection isolation.** Socket.v state machine with connection ids; refuted; partial without reopen.
* **C33 HTTP client request lifecycle.** Http.v state machine.
* **C34 Server socket lifecycle.** ServerSocket.v state machine.
* **C35 Servers close every connection and stop when told.** Server.v small-step over accept/processor oracles, interleavings as step lists.
* **C36 Comparison is a total order on scalars.** Compare.v.
* **C37 TSet behaves as a mathematical set.** TSet.v: Add loses a new minimum: refuted; partial. ContainerKeys.v: the exact contents after every history, elements of any ordered type.
* **C38 TList behaves as a sequence.** TList.v.
* **C39 TMap behaves as a finite map.** TMap.v; ContainerKeys.v for keys that are lists or sets.
* **C40 Field container lookups are consistent.** TField.v.
* **C41 Field equality agrees with field comparison.** TField.v: Equals ignores name: refuted; partial.
* **C42 Error classification is preserved.** Errors.v.
* **C43 Application exceptions round trip.** AppExc.v over both protocols.
* **C44 Processor answers each request exactly once.** Rpc.v. PropExcText.v: the exceptions byte by byte.
* **C45 Client accepts only the matching reply.** Rpc.v.
* **C46 Client uses the configured protocol.** Rpc.v: inverted nil check: refuted.
* **C47 End-to-end call.** Rpc.v composition.
* **C48 Generated structs round trip.** Gen.v: schema-driven model of the emitted reader/writer.
* **C49 Generated readers ignore unknown fields.** Gen.v.
* **C50 Generated readers skip fields of unexpected type.** Gen.v: reader reads anyway: refuted.
* **C51 Generated field dispatch honours field ids.** Gen.v: negative ids collapse to -1: refuted; non-negative proved.
* **C52 Enum string conversion round trip.** Enum.v.
* **C53 Generated identifiers are valid and distinct.** Names.v: keyword freedom proved; distinctness refuted.
* **C54 JSON type names are a bijection.** Json types: refuted for i16, partial.
* **C55 JSON strings round trip.** JsonText.v (encoding/json string quoting); refuted outside UTF-8.
* **C56 JSON binary round trip.** JsonText.v.
* **C57 JSON integers round trip.** Strconv.v decimal printing/parsing, readNumeric in Json.v.
* **C58 JSON output is well formed.** Json.v context stack machine against a JSON grammar.
* **C59 JSON structured value round trip.** Json.v.
* **C60 JSON decoding does not depend on read chunking.** bufio model; refuted (Buffered()<1 tests).
* **C61 Write errors are reported.** Writers over a failing transport.
* **C62 Type predicates partition the type ids.** TType.v.
* **C63 Numeric strings coerce to their value.** Coerce.v: inverted check: refuted.
* **C64 Coercion is idempotent.** Coerce.v.
* **C65 Comparison of lists and sets is a total order.** ListOrder.v: an order defined on the values, Compare shown to decide it.
* **C66 Less means precedes.** Both Less methods: refuted; what they compute is proved.
* **C67 The JSON readers return on every input.** JsonTotal.v, JsonSkip.v: bytes left never grow, containers and fields use some up; ReadBool refuted.
* **C68 The JSON protocols report write errors.** PropJsonWrite.v: `ugood` of every Output function; TJSON WriteBinary refuted.
* **C69 Skip over TCompactProtocol returns on every input.** CompactSkip.v: bytes left never grow, field headers and list headers use some up; negative string length refuted.
* **C70 The JSON readers refuse malformed input.** PropJsonReject.v: separators, first characters, misplaced characters in numbers, base64, strings, header parts, versions; some bad escapes and numbers refuted.
* **C71 (generated code over JSON).** `Access.v` holds the relation between a protocol and the value it delivers or takes (`rd`, `wr`; the flag says whether strings and binaries agree), shared by the binary, compact and JSON protocols; `JsonReadVal.v` derives it for JSON documents. `PropJsonGen.v`: round trip, unknown fields, newer writers; refuted for binary and i16 members.
* **C72 (failed writes in generated code).** `GenErr.v` lifts a predicate on protocol calls to the generated writers (`closed_gwrite`), with two instances: how the results of Write calls are used up (`ugood`, C26/C68), and that an operation without an error does what it does on a transport without faults (`calmed`). `PropGenErr.v` has the theorems; refuted for clients' SendX.
* **C73 (constants).** `Consts.v` has `render` (render_const_value as a function to a small syntax of Go expressions and statements), `generate_const`, and an interpreter for that syntax (scopes, `:=`, assignability, untyped constants) over the models of TList, TSet and TMap. `ConstSpec.v` says what a constant means (`denotes`) and which the code handles (`good`). `ConstProofs.v` proves by induction on the constant that the rendered block, run where the name is bound and the temporaries are fresh, leaves the value denoted.
* **C74 (defaults).** `ctor_body` in `Consts.v` is the constructor's body. `PropConst.v` runs it member by member, links it to `gnew`, and proves that a default with contents acts on a name nothing declares (`exec1_dom`: statements change the bound names only by `:=`).
* **C75, C76 (protocols over the transports).** `Over.v` is the code of both protocols with the transport's Write, ReadAll and io.CopyN as parameters; the models used elsewhere are instances (by reflexivity). `Het.v` proves that everything written against the protocol interface, the library's and generated code, cannot tell two protocols over different states apart that answer alike; `OverSim.v` that a protocol over a transport that delivers some bytes answers like one over those bytes (`delivers`, `accepts`); `OverInst.v` that each transport delivers or accepts.
* **C77 (calls).** `OverRpc.v` extends the simulation to a client and a processor exchanging messages; `PropOverRpc.v` instantiates it with frames and combines it with C47. `PropFramedCalls.v` replaces the condition on the messages of the run by bounds on names and values (`Sizes.v`).
* **C78 Read errors.** PropFail.v, `upto_error` of TransportProofs.v as specification: the data up to the first error, and that error.
* **C79 Structs over TSimpleJSONProtocol.** PropSimpleGen.v, `stext` of SimpleGen.v (the text of a value, directed by its type) and the JSON grammar as specifications.
* **C80 Containers without an element type.** PropTyped.v; `of_type` (the Go values the generated code uses for each type) as specification.
* **C81–C84 The generated command-line client.** Remote.v: imports and package names of the file, types of its arguments, and main as a function from flags and what the network does to the list of what others see (opened transports, calls, exit status); flag.Parse, url.Parse, net.ResolveTCPAddr, http.Get are outside. PropRemote.v; `says` (what a word says) as specification. The parts of C82–C84 are about the program without the import that C81 is about.
* **C85 Comparison of generated structs.** GenCompare.v: CompareTo, AttributeByFieldId and the promoted Equals and AttributeFromFieldId of generated structs; what follows for lists, sets and maps of them.
* **C86 Struct declarations.** StructDef.v: the names of the fields and methods of the Go type declared for a struct; when they are valid and different.
* **C87 Generated structs as TStruct.** StructDef.v: the method set of the type, with what members shadow; what a list keeps of a struct that is no TStruct.
* **C88 Numeric.** Numeric.v; F64Exact.v proves that integers of 53 bits are float64 values.
* **C89 Message headers.** Numeric.v.
* **C90, C91, C93 Generated packages.** ProgFile.v: imports, package-level declarations and uses of ttypes.go and the service files.
* **C92 Signatures of clients.** ProgFile.v.
* **C94 Directories and package names** (`Layout.v`, `PropLayout.v`): layout proved; name valid iff the last piece is.
* **C95 Distinct files**: iff no service is called ttypes and names differ.
* **C96 Files the go tool builds**: iff on service names.
* **C97 Imports of generated packages**: iff on dots.
* **C98 Comments**: iff on texts.
* **C99 (PropJsonRpc.v)**: the statements of C44 and C47 over TJSONProtocol. RpcProofs.v was made general in the invariants outside and inside of a message, the text of a message's end and the condition on the rest of the input, so the binary, compact and JSON protocols are instances of one proof. Two defects are proved on whole connections: an i16 argument leaves the processor's reader inside the message (its contexts are not reset), and a piece that ends behind a number or a string breaks the connection.
* **C100 (PropRefused.v)**: an exact list, by type, of the data CoerceData refuses, and that the containers leave such data out. Prompted by seeded faults in TList.IndexOf, TSet.find and TMap.Set that no theorem noticed.
* **C101 (Iter.v, PropIter.v)**: the channel iterators as two goroutines with an unbuffered channel, all interleavings. Elsewhere in the model a loop over Iter() is a loop over the elements; C101_loop justifies that for loops that do not store ahead. Not modelled: several loops at once, memory orders weaker than sequential consistency, changes of a map during a loop.
* **C102 The tutorial's calculator.** Add, Calculate and GetStruct of CalculatorHandler behind the generated client and processor (C47): every dialogue is the one the arithmetic requires. The IDL files of the tutorial are not in the repository; Tutorial.v gives the service as the handler's methods have it. Panicking handlers, zip and the names of the constants: refuted. `PropFramedTutorial.v`: the same over frames. `PropJsonTutorial.v`, `PropSimpleTutorial.v`: over TJSONProtocol and TSimpleJSONProtocol.
* **C103 Connections.** Serve.v is processRequest of tsimple_server.go with the factories it takes its transports and protocols from, over the processor of Rpc.v; what is sent is the answers of `session` (ServeProofs.v), for every combination of factories.
* **C104 Any input.** The loop of processRequest ends because every message read takes a byte or a Read (ServeRounds.v); what it writes is answers (PropServeCompact.v: also over TCompactProtocol).
* **C105 Many connections.** Serve.v also has Serve with clients taken one after the other (TSimpleServer) and with a goroutine for each (TNonblockingServer), a schedule saying whose turn it is; `shared` (PropMany.v) says what each should be sent.
* **C106 Typedefs.** Typedef.v has the emitted readers and writers for types with typedefs in them: values of a typedef of a base type or an enum have a Go type of their own, which the containers' type switches do not know.
* **C107 Answers of comparisons.** Over all values and type ids, by induction on the fuel of Compare.
* **C108 Transport factories.** By induction on the factory; the places bytes come from and go to are defined beside the theorem.
* **C109 Timeouts of sockets.** Deadline.v is the two sockets with the deadlines of their connections; the theorems are about the last call of any history.
* **C110 Truncated JSON input.** JsonCut.v: each reader, given a strict prefix of the text it expects, fails or leaves no input; with no input left every closing bracket fails.
* **C111 tcompare.go.** Tcompare.v adds CompareFloat and CompareDouble; the orders of the specification are independent of the model (alphabetical order by common prefix and first difference, Coq's SFcompare for floating point).
* **C112 The tutorial's program.** TutorialMain.v: main, RunClient, RunServer and Simple over parsed flags and any outcomes of the network's operations; the dialogue of the two ends is C102's, plain and framed, or over one of the JSON protocols without frames. flag.Parse and the printed texts are not modelled.
* **C113 Calls over TSimpleJSONProtocol.** PropSimpleRpc.v: the client and processor of Rpc.v over simpleR and simpleW. TApplicationException.Write writes its fields under their names, and ReadFieldBegin (tsimple_json_protocol.go) hands out names only, with ids of -1: TApplicationException.Read looks at ids, skips values of type GENERIC by doing nothing and fails. That refutes the part about failing handlers, for every such handler.
* **C114 A service that returns its argument.** Golden.v has the types and the service of tests/generation/simple.thrift; PropEcho.v has calls of any method with one argument and a result of the same type, over the five protocol stacks; PropGolden.v instantiates them with the golden service, where every hypothesis about values becomes one about nine numbers. The proofs use the call theorems in a form that asks the handler only about the arguments it is given and allows an invariant of its state (C47_*_states, C99_*_states, C77_sizes_*_states).
* **C115 The comparison of maps.** PropMapOrder.v, MapCompare.v: the MAP case of TType.Compare for keys and values that C65 orders. The order of iteration is the oracle x_order of GoVal.v, one order per object and per call of Keys or Values; two iterations of the same object by the same call are taken to give the same order, which Go does not promise (the theorems about one comparison do not depend on it; C115_total_order compares one map twice and does).
* **C116 A request is answered without reading on.** Ahead.v, PropAhead.v: what is behind the bytes of a message is any list of Reads `t`; a run of Process on the message followed by `t` gives what it gives on the message alone (rd_near, over the readers of any value) and leaves exactly `t`. An untouched `t` is the model's way to say that no Read was made that could block. The JSON part runs the model of bufio's Peek (BufRead.v). C99, C102 and C112 over JSON give the reader a transport that ends after each message, so they do not see the blocking Read.
* **C117 A server over TJSONProtocol.** PropJsonServe.v: loop_session of ServeProofs.v, used for C103, for jsonR and jsonW; requests and answers are the texts jmsg of C99.
* **C118 The work done for a message.** PropWork.v: a counting transport that `delivers` (OverSim.v) with an invariant reads + bytes left <= K until the input has ended; the simulations of Het.v carry it through Skip, gread and process.
* **C119 Panics.** PropCalm.v: `calm` (not Panic) is kept by binds, so it follows for Skip and gread from the methods of TBinaryProtocol without ReadBinary; for each other type an input is built by induction on the type (`breaks`): a member of a struct is reached behind a field header of its id, an element behind zero bytes, which every reader takes. PropCalmJson.v: the same with an invariant on the reader's state (`kc`, the `SI` of C67), and exceptions with any message are written (`jow_exc_any`).
* **C120 Answers.** PropAnswer.v: `kt` (returns, keeps the invariant, does not lengthen the input) is kept by binds; the loop over fields is bounded since a field header other than STOP takes a byte, the loop of the server since a header with a name takes one. PropCompactServer.v: Process and a connection over TCompactProtocol on input without negative varints.
* **C121 Frames.** Unframe.v, PropUnframe.v: `fsim` relates a TFramedTransport to the rest of its buffer followed by the frames to come; ReadAll gives the same on both, so the protocols do (as in OverSim.v, here for any input; UnframeCompact.v for TCompactProtocol), and C120 holds over frames.
* **C122 Ends or panics.** Depth.v: levels of containers in a value bound the depth of Compare; containers only get elements as deep as given (or an empty struct); PropHalt.v: the same for the readers by the height of the type and the bytes left; WriteEnds.v: the writers by the height alone; then Process and the loop of a server; PropHaltClient.v: SendX and RecvX.
* **C123 Clients and any answer.** PropCalmClient.v: app_read and RecvX over any `returning` reader; replies that make the reader of a non-plain result panic (plain_or_breaks); the calculator's client; PropCalmCompact.v: TCompactProtocol on input without negative varints, where the never popped stack of field ids makes ReadStructEnd safe; PropCompactChat.v: any number of calls on such input; PropJsonChat.v: over TJSONProtocol.

## Trusted base

* Coq's kernel (8.16.1) and what `Print Assumptions` lists under each theorem
  (goal: closed under the global context everywhere).
* The hand translation of the Go/C++ source to Gallina, as cited in comments.
* Go runtime and standard library behaviour that the model states directly:
  `bytes.Buffer`, `bufio`, `encoding/binary`, `encoding/base64`, `encoding/json` string quoting,
  `strconv`, `container/list`, `net`, `net/http` (each as described where it is modelled).
* For C73/C74: the rules of the Go language that `Consts.v` states (scopes, short declarations,
  assignability, untyped constants and their default types, constant initialisers, string literals).

Not modelled: memory exhaustion, time-outs and deadlines as real time, goroutine
fairness, logging, error message texts, reflection-based printing, the C++
generator's text emission beyond what is cited.
