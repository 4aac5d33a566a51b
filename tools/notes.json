{
 "C06": "Binary and compact: every program of read calls, including Skip.",
 "C09": "Refuted: Skip discards the errors of list, set, map elements and of struct fields. C09_exact says for every value and every cut point when an error is reported: all of a scalar or string, only the header of a list, set or map, nothing of a struct.",
 "C10": "Refuted: the depth argument is never compared with anything.",
 "C11": "Refuted: ReadBinary panics on a negative length; ReadString and the container readers return a negative size without error. All other reads return on every transport.",
 "C18": "Refuted: false fields cannot be read back, for any id (proved universally); true fields round trip.",
 "C19": "Refuted for three levels of structs; proved for two levels, and C19_exact says exactly for which values the ids come back (ids_kept).",
 "C20": "Refuted for ONEWAY (read back as 0); proved for the other message types.",
 "C21": "Refuted: truncation in a string body is never reported by the read itself. C21_exact: the encoding of any value, containers and structs included, is refused exactly if more bytes are missing than belong to a string that ends it; C21_structs: a struct is refused wherever it is cut.",
 "C22": "Refuted: a negative length panics in ReadBinary/ReadString; proved otherwise.",
 "C23": "Refuted for empty maps (types are not on the wire); proved for lists, sets and non-empty maps.",
 "C24": "Refuted (C18, C19); proved for values without false fields and with struct nesting as in C19, up to the types of empty maps. C24_read_back gives the value read for every value without false fields, C24_false_field the error for all others, C24_exact the values that survive.",
 "C25": "Refuted (false fields; numbering after nested structs); C25_skip_exact: the position is exact for every value without false fields, and the numbering left is given; C25_false_field: where a skip stops in a struct with a false field.",
 "C26": "Refuted for transports returning (0, nil); proved for all others.",
 "C27": "Refuted: an empty Flush gives a spurious end of file, an empty Read drops the rest of a frame, data returned together with io.EOF is lost. Proved for non-empty flushes below 2^31 bytes, non-empty reads and all chunkings. C27_pieces: reading over frames gives what reading over a transport with one piece per frame gives, so results about messages in one piece hold for messages in one frame.",
 "C28": "Every history; Flush success under every schedule of write failures.",
 "C29": "Refuted for a (0, nil) read inside a frame; proved for streams cut anywhere, all chunkings, and for negative sizes on 32-bit int.",
 "C30": "Every history of calls against a queue specification; ReadFrom takes everything up to the first error.",
 "C31": "Refuted: an empty Write panics; a closable ReadWriter still receives bytes after Close. Proved otherwise; also that Flush delivers exactly the written bytes (bufio.Writer modelled).",
 "C32": "Refuted: unflushed bytes survive Close and go to the next connection. Proved when every Close follows a Flush; proved without condition for TNonblockingSocket. Also what every call answers on a closed or open socket.",
 "C33": "Refuted: a failing post leaves its bytes for the next one; Close after a response leaves the client open; a GET client panics on Write. Proved otherwise; Flush succeeds exactly for an answer 200.",
 "C34": "Refuted: TServerSocket.Accept listens by itself, also after Interrupt; a second Listen of TNonblockingServerSocket is an error. Proved: TNonblockingServerSocket accepts only while listening; idempotence of the rest. Accept gives a connection exactly when it reports no error, that is, when there is (or can be made) a listener and it gives one.",
 "C35": "Closing exactly once per transport handle proved for all interleavings (with the default factory both handles are the same object). Refuted: a connection can be accepted after Stop with TServerSocket, and Stop before Serve is lost. Proved: at most one more; none with TNonblockingServerSocket. Nothing is taken on before a successful Listen; a panic in Process takes the server down. C35_serve_again: after an error of Accept, Serve can be called again with TServerSocket; with TNonblockingServerSocket it fails (\"already open\") and takes on nothing until an Interrupt.",
 "C36": "Refuted for NaN; proved for all other values of every scalar type.",
 "C37": "Refuted: an element below all others is dropped (proved universally), and an empty set reports its size hint as Len. C37_set_partial: histories without such additions. C37_every_history: the exact contents after every history, for scalar elements and lists and sets of any depth; struct and map elements are not covered.",
 "C38": "Every history within the index contract, and the behaviour outside it; data are those the element type accepts. Contains finds exactly the values equal to an element.",
 "C39": "Refuted: Get of an absent BOOL key says found; Keys panics for MAP keys. Proved for all scalar key types otherwise, and by C39_container_keys for keys that are lists or sets of any depth; struct keys are modelled but not covered.",
 "C40": "Refuted: At takes an id; empty names are not indexed. Lookups by id and non-empty name proved.",
 "C41": "Refuted: names are ignored by Equals, nil receivers, duplicate fields. The agreements that do hold are proved, and that containers are ordered by length and compare as 0 exactly if they hold the same fields.",
 "C42": "Refuted: END_OF_FILE of the transport becomes BAD_VERSION when wrapped by the struct readers. The other clauses hold.",
 "C48": "Round trip proved for the binary and compact protocols for all schemas with non-negative ids and all values meeting `kept`; refuted for sets of two or more, lists of enums, empty optional containers, unset members with defaults, -0.0, and binary members with compact.",
 "C49": "Proved for the binary protocol (any extra fields; any newer writer); compact for values whose ids are kept (C19), C49_compact_ids without that condition (the members the reader then sees); refuted for false members.",
 "C50": "Refuted: the reader only tells VOID from the declared type.",
 "C51": "Proved for ids >= 0 with the binary protocol; refuted for negative ids (whose generated method names are not valid Go either).",
 "C61": "Binary and compact protocols, every write call.",
 "C62": "Refuted: ENUM and UTF8 share an id. All other relations proved for every id.",
 "C63": "Refuted: the parse error test is inverted; the inversion is proved for all strings.",
 "C64": "Refuted for Numeric values; proved for all others, with what each integer type does to a Numeric, what doubles become and what is false.",
 "C43": "Binary: every exception, message and type id. Compact: proved outside nesting; refuted when an unknown extra field is a struct with false booleans or deep nesting (C18, C19 defects).",
 "C44": "Valid requests (binary and compact) and unknown methods: exactly one reply with the request name and sequence id. Refuted for malformed arguments: an unknown list element type panics the processor. The bytes of the exceptions for a failing handler and an unknown method are spelled out (PropExcText.v), texts and codes included.",
 "C45": "Refuted: the client never tests the message type or the method name, and an empty reply counts as a success. Sequence id test and handling of EXCEPTION replies proved. C45_sequence gives, over every protocol, the whole answer of RecvX to another number: code 4 and a text that says \"ping\" for every function. With an application exception, or a header that cannot be read, the caller gets the zero values of the results, an enum its 0 (C45_zeros).",
 "C46": "Refuted: NewXClientProtocol has an inverted nil test, given protocols are replaced by nil and calls panic. Clients made from a factory proved.",
 "C47": "Any number of calls over one pair, any chunking, binary and compact, for values the protocols carry (C18/C50 defects). Refuted for oneway calls (the client reads the unwanted reply at the next call) and false bools over compact. C47_*_states_partial ask the handler only about the calls made and keep an invariant of its state.",
 "C52": "All enums with distinct constant names; values as the generator numbers them. Undeclared values print as <UNSET>-style markers as in the emitted code. C52_value: Value() gives the number exactly if it fits into an int.",
 "C53": "Keyword freedom and validity proved for member, argument and type names. Refuted: names starting with _ are not exported, distinct IDL names can clash, and a received exception keeps its IDL name, which may be a keyword. Distinctness proved for lower case names and for underscore-free names with the same first-letter case.",
 "C54": "Refuted for I16 (written \"i16\", read \"16\"); exactly the ids that do round trip are characterised.",
 "C55": "Every UTF-8 string, both protocols, every chunking, context and encoding/json escaping style. Refuted for bytes that are not UTF-8, for every style.",
 "C56": "Every byte slice, both protocols, every chunking, in every context; inside lists and objects the separator in front has to be buffered already (defect of C60).",
 "C57": "Byte, i16, i32, i64, both protocols, every chunking, as values and as member names; separator in front as in C56.",
 "C58": "Every properly nested call sequence of both protocols, against the RFC 8259 grammar. Refuted for strings that are not UTF-8 with the encoding/json of Go 1.0 (the string vanishes).",
 "C59": "Values and messages, any length, for UTF-8 strings, no I16 members, and chunkings without cut at a separator. Refuted for I16 members, and for long documents arriving in one piece.",
 "C60": "Refuted: a cut before a comma changes the result. Proved equal for all cuts elsewhere.",
 "C65": "All lists and sets of scalars nested to any depth; fuel above the depth. Maps and structs inside are not covered.",
 "C66": "Refuted: TList.Less is always true, TType.Less is reversed and int16 type ids count as STOP. What each computes is proved, for type ids given as TType, byte and other integers as well.",
 "C67": "Refuted: ReadBool panics when an error came with the data that filled the buffer. Proved for all other calls on any transport, and for all calls including Skip when no error comes with data.",
 "C68": "Proved for TSimpleJSONProtocol and for every TJSONProtocol call but WriteBinary, which ignores all write errors (refuted).",
 "C69": "Refuted: a string length that is a negative varint panics. Proved that Skip always ends, and panics only if such a varint occurs in the input.",
 "C70": "Refuted: bad escapes in a string without an escaped quote, exponents without digits, an empty input for ReadBool and versions beyond 32 bits are accepted. Proved for missing separators, wrong first characters, misplaced characters in numbers, bad base64, bad strings with an escaped quote, bad header and field header parts, field names without quotes, the end of the input and wrong 32-bit versions.",
 "C71": "Partial: types without binary, values without i16 members or map keys/values, valid UTF-8, doubles that format and parse back; the tight cuts of the text C60 reads. C71_i16_first: a struct whose first written member is an i16 is never read back; C71_refuted: binary and i16 members are written but refused by the reader.",
 "C72": "Proved for the binary, compact and simple JSON protocols. Refuted: SendX drops the errors of WriteMessageBegin, WriteMessageEnd and Flush; a processor goes on writing after a failed WriteMessageBegin; the number of a transport's error is taken for a protocol's. Missing in C72_reply_compact_partial: methods and texts too long for compact lengths; TJSONProtocol (C68).",
 "C73": "Proved for the constants `good` describes (Coq: ConstSpec.v). Refuted, each with a witness: binary constants; sets that add a new minimum; maps with integer or enum values and keys other than binary (writing them panics); struct members of a typedef'd base type, with reserved names, or negative bytes; doubles of more than six digits.",
 "C74": "Proved for defaults of base types and enums and for empty containers or structs, and that the result is the object `gnew` of Gen.v. A default with contents never compiles (proved in general); so does a negative key (witness).",
 "C76": "Proved for all the transports but TIOStreamTransport under TBinaryProtocol, where it holds unless a panic happens (_partial); the panic is real: writing an empty binary (refuted with a witness).",
 "C75": "The protocols of Binary.v and Compact.v are instances of the ones over any transport (Over.v, by reflexivity).",
 "C77": "The hypothesis `fits` speaks of the plain run: its messages are 1 to 2^31-1 bytes long and no SendX fails.",
 "C78": "bufio.Reader modelled, including the direct read into large buffers.",
 "C79": "Refuted: fields with unknown names are never skipped (proved for every such document), and a document whose first piece ends behind a comma is refused. Round trip for texts of at most 4096 bytes with UTF-8 strings, without binaries in containers, not cut at the positions named.",
 "C80": "Refuted: a set without a type stores nil for everything (proved for every value), an int beyond 32 bits and a negative int8 are changed, unsigned integers become nil, slices are lost. Proved for the values the generated code uses.",
 "C81": "Refuted for every service: math is imported and never used. Which other imports are used and which argument types fit is characterised exactly.",
 "C82": "Refuted: numbers out of range are cut, i16 arguments are cut to eight bits, every word but true is false, and a container whose number is not its position is dropped. Proved otherwise.",
 "C83": "Refuted: unknown functions, inherited functions, wrong numbers of arguments and unknown protocols end with status 0. What is called and how the process ends is proved.",
 "C84": "Refuted: HTTP URLs are ignored and the port of another URL is kept beside that of -p. Proved for -h and -p.",
 "C85": "Refuted: Compare asks for AttributeFromFieldId, generated structs define AttributeByFieldId and have the other from the embedded TStruct, which gives nil. Proved instead: every two structs of a type are equal, lists with one contain all, a set keeps its first struct and a map with struct keys its last entry, also when read from the wire.",
 "C86": "Refuted: members read, t_struct, a beside is_set_a, a beside A, type beside type_a1, a beside read_field1, and negative ids. Proved: exactly which member lists give a valid declaration, and for lower case names that only clashes with the methods or t_struct stand against it.",
 "C87": "Refuted by a member len. Proved: it is a TStruct exactly if no member has the Go name of a method of TStruct; otherwise a list keeps an empty struct in its place and is never written.",
 "C88": "Refuted: no integer's String is its text (it is the character of that code point), and read again only 0 survives; beyond 53 bits the float64 can be another number; texts that are no integers give 0 without a sign of it. Proved: integer accessors, float64 up to 53 bits, float64 values and their integer parts, texts of integers. strconv.FormatFloat with 10 digits is a parameter; what it loses is not stated; null is kept.",
 "C89": "Refuted for String: all negative sequence ids read the same, and the type of every message is a control character. Proved for Equals.",
 "C90": "C90_iff: holds exactly if the program includes none, has a struct or exception, no service extends one and every service has a function (and the module is not fmt, math or thrift). Refuted for the rest: imports of includes and of extended services are printed after func init, and without a struct fmt is imported and not used.",
 "C91": "C91_iff for lower case names (services and functions not called new or i): exactly if types, services, functions of all services, and constants with enum values differ. Refuted for all names: two services with a function of the same name; a constant of an enum type named like one of its values. Missing: an iff for names with capitals and underscores.",
 "C92": "C92_iff lists the names that arguments and exceptions must not have. Refuted: arguments p, err, nil, thrift, oprot; exceptions value, seqId; an exception named like an argument; and others. The number behind a temporary's name is a parameter below 2^63.",
 "C93": "Proved for programs that name only types of their own and whose services and functions have no double underscore and none at the end. Refuted without these. What method bodies of structs use beyond the types of members is not modelled.",
 "C94": "C94_layout for modules that do not end in a dot. C94_name_iff: the clause is valid exactly if the last piece is a name for a package. Refuted: program names with a dash, modules ending in a dot (empty package name), last pieces that are keywords.",
 "C95": "C95_distinct_iff: exactly if services have different names and none is called ttypes; refuted by that name.",
 "C96": "C96_built_iff: exactly if the name does not begin with an underscore and what follows its last one is neither test nor an operating system or architecture; refuted by mail_test and _mail.",
 "C97": "C97_include_iff: exactly for modules without a dot; refuted by com.shop. C97_remote_iff: the remote client's import is right unless the module ends in a dot.",
 "C98": "C98_plain_iff (typedefs, enums, services): exactly if no line begins with a slash; refuted by /etc/hosts. C98_members_iff (structs, functions): always. generate_docstring_comment of the base class, which is not in the repository, is taken to print every line behind the prefix.",
 "C99": "Proved for values TJSONProtocol carries (C59): C99_calls_partial for messages cut where the reader can go on, C99_small_calls_partial for messages that arrive in one piece, C99_answers_partial for any request whatever that does not make the processor panic, C99_unknown_partial for unknown methods. Missing: binary members and oneway functions. Refuted: after one call with an i16 argument every later call on the connection fails (C99_i16_refuted); so do calls whose bytes arrive cut at an unlucky place (C99_cut_refuted). C99_*states_partial are the forms that ask the handler only about the calls made. The JSON parts take a transport that ends after each message; on an open one a call without arguments blocks (C116).",
 "C100": "C100_refused_iff gives the exact set of refused data, C100_list, C100_set, C100_map and C100_nil what the containers do. Refuted: among the refused data are the texts of numbers, while texts that are no numbers are put in as 0 (C100_texts_refuted; the cause is C63).",
 "C101": "C101_loop and C101_ends for loops that store nothing ahead of where they are, C101_goroutine_iff: the goroutine ends exactly if every element was seen. Refuted: an early return, as generated Write functions do on an error, leaves the goroutine waiting for ever (C101_write gives the exact condition, C101_write_refuted a case); stores ahead and Delete in the loop give results that depend on the interleaving; map key types without a case kill the program (C101_map).",
 "C102": "Over the binary and the compact protocol, plain and framed, and over TJSONProtocol and TSimpleJSONProtocol with messages in one piece. Refuted: a calculate without a Work makes the handler panic, a zip makes the next call fail, and the tutorial uses names for the operations that the generated package does not declare. The JSON parts take a transport that ends after each message; on an open one a call without arguments blocks (C116).",
 "C103": "Plain transports are the connection itself (TTransportFactory's default returns its argument); framed ones a TFramedTransport on each side. JSON protocol factories are not covered.",
 "C104": "The bound on rounds is for plain input, binary or compact, and any output. That only answers are written is for any input; connections on which the processor panics are excluded (C44 shows requests that make it). Over TCompactProtocol (C104_compact_answers_partial) results and texts are as in C44, and names must leave room for the text of the answer in an int32 length: with TBinaryProtocol input they do whenever the input is short enough (C104_names); with TCompactProtocol input a name is as long as the client claims, the missing bytes being zeros, so the hypothesis `meets` speaks of the names the connection really meets.",
 "C105": "The calls of Process of different connections are taken not to overlap; a handler whose calls Go lets overlap is outside the model. C105_isolated and C105_in_turn hold for any bytes, the others for clients that send valid requests.",
 "C106": "The equalities are partial because they are false of containers of typedef'd base types and enums and of unset members of a typedef'd enum; the refutations are universal (every naming of Go types, every element). Typedefs of structs do not compile and are outside the model.",
 "C107": "The symmetry is partial because it is false for NaN and structs, and meaningless for maps, whose iteration order Go leaves open. C107_doubles covers doubles and lists and sets of them as long as none is or becomes a NaN; C107_doubles_iff: for two float64 exactly then.",
 "C108": "False of the factories of memory buffers, HTTP clients and sockets, for every transport; for connections, exactly the plain and framed factories have the property.",
 "C109": "Flush is partial: under the right deadline only right after the Write. Times are unbounded integers.",
 "C110": "Values, texts and chunkings as in C59 (plain_val, readable). Scalars on their own are refuted: a cut number is a shorter number.",
 "C111": "NaN and the parameter type of CompareInt64 are refuted.",
 "C112": "The exit status, the waiting server and --http are refuted; the dialogue over TJSONProtocol and TSimpleJSONProtocol without frames is C112_json_talk_partial and C112_simple_talk_partial; over JSON under frames it is not proved. The JSON parts take a transport that ends after each message; on an open one a call without arguments blocks (C116).",
 "C113": "The calls are proved for handlers that do not fail and for values the protocol keeps (splain, texts up to 3000 bytes or pieces it can read); for every failing handler and for an unknown method with arguments the claim is refuted.",
 "C114": "C114_golden_* are for the golden service, the others for any method that takes and returns one value of a type without sets and maps; those are partial because of the refutations (defaults, wide numbers, sets).",
 "C115": "Keys and values of scalars, lists and sets. That equal maps have the same entries and the other way round holds only with at most one entry or for keys kept in a list (C115_entries); for Go maps C115_equal_partial gives equal keys and equal values, and both directions of the claim are refuted.",
 "C116": "Holds for TBinaryProtocol and TCompactProtocol on a transport without buffering (C116_server, C116_connection, C116_binary_reply, C116_compact_reply). Refuted for TJSONProtocol: the empty struct at the end of a message (universally, C116_json_brace_refuted), the tutorial's server and client on ping. That other JSON messages are read without reading on is only an example here.",
 "C117": "C117_session for any pieces TJSONProtocol reads (C60), C117_pieces for requests in Reads of their own; both for members without binary and values TJSONProtocol keeps (C59). C117_cut_refuted: other cuts lose or fail the request. The loop is that of C103 (serve_loop) with the TJSONProtocol of Json.v on the plain transport; that the factories make these is not modelled. On an open connection see C116.",
 "C118": "C118_skip_partial, C118_read_partial, C118_process_partial: Reads are counted by a transport (counted_read) under the protocols of Over.v; missing is the end of the input, where C118_skip_refuted, C118_compact_refuted and C118_process_refuted give the exact number for every declared size. C118_buffer_refuted for sizes of buffers. Loops of Skip over elements of an unknown type, which read nothing, and the memory of containers are not measured; TJSONProtocol is not treated.",
 "C119": "C119_read is an equivalence over TBinaryProtocol. C119_process and C119_server (plain or framed on either side) for services with plain arguments whose handlers give results that can be written, as in C44; C119_process_panics and C119_server_panics for all others; C119_tutorial for the Calculator, with its handler's own panics (C102_nil_refuted) taken as errors. C119_compact_refuted for TCompactProtocol: every service. These remove the exception for panics from C44 and C104 for such services. Over TJSONProtocol (PropCalmJson.v): C119_json_read (and TSimpleJSONProtocol), C119_json_server and C119_json_tutorial for types without containers, binary allowed in arguments, results without binary, as long as no error comes together with data; C119_json_containers gives a text for every container; C119_json_refuted shows that an error together with data makes every service panic. For containers within structs over JSON no text is built. A panic for a length beyond memory (C118_buffer_refuted) is not modelled. C119_compact_partial (PropCalmCompact.v): over TCompactProtocol the readers of types without containers return on every input without a negative varint, in particular if no varint has more than four bytes (`tame`).",
 "C120": "Total statements: C44, C99 and C104 say what an answer is if Process returns, C119 that it does not panic; here it is proved that the result is `Ok` with an explicit amount of fuel (twice the bytes of the input plus two; the rounds of the loop: one more than the bytes), so that neither Panic nor an endless loop is possible. Function names must not be empty (over JSON a null is taken for a message of no name without being consumed). C120_framed for framed input, output or both (if no Read returns neither data nor an error). TCompactProtocol panics on eight bytes (C119_compact_refuted). Handlers are quantified and must give results that can be written, as in C44. Over TCompactProtocol Process answers every request without a negative varint and a connection ends on every input of bytes whose varints have at most four bytes (PropCompactServer.v; C120_compact_framed: the same for framed input); the texts of exceptions must have lengths in an int32, and results no binary members, which this protocol does not write (C48).",
 "C121": "C121_server is an equation between two calls of processRequest, for every service and handler; C121_read for the readers of every type, C121_recv for RecvX of every function. `unframed` is defined from ReadAll alone; C121_frames says what it is for whole frames (also empty ones) with a cut-off one at the end, C121_no_more that no bytes are added. Refuted without its hypothesis: a Read of no data and no error makes ReadAll return early without an error, and a frame is filled up with zeros (C121_no_more_refuted). TCompactProtocol too: its varint loop ends over frames also when they are filled up with zeros, since a zero ends a varint. C120_framed follows (TBinaryProtocol).",
 "C122": "Go's recursion is modelled with fuel; here explicit amounts are proved to be enough, without the restriction to types without containers of C120 (which also excludes Panic: with containers it is possible, C119_process_panics). C122_compare also says that any larger amount gives the same answer, so the fuel in the theorems about containers (C37, C39, C48 …) is no restriction. Values are finite (no cyclic containers) and map iteration is a permutation (`orders`). Ending says nothing about time: a reader asks for each of the declared elements until the first error. The writers' recursion follows the type, so C122_write holds for any value, of whatever Go type (a wrong one panics), and C122_server for any handler whatever it returns; C122_json_server for any state of the output. Framed input needs `busy` as C121_no_more does. C122_recv and C122_send are the client's side: RecvX for any function and any bytes sent back (an exception, a wrong sequence number, an answer cut short), SendX for any arguments and any client, also one whose constructor left a protocol nil (a panic).",
 "C123": "C119/C120 for the other end of a connection. Framed input must not have empty pieces without an error (`busy`), TJSONProtocol input no error but the end (`clean`). What RecvX returns need not be right: a field's declared wire type is not compared with the member's (the Example: a list read as a number). C123_compact_partial: over TCompactProtocol RecvX returns unless a negative varint is in the input, plain or framed. The refutation over TCompactProtocol is a universal one: every function, every setting. C123_session: any number of calls of one client over TBinaryProtocol return whatever its input holds, and the requests it writes do not depend on that. C123_compact_session_partial: any number of calls over TCompactProtocol, for answers whose varints have at most four bytes. C123_json_session: the same over TJSONProtocol for every input in which no error comes with data."
}