{"id": "C01", "title": "Binary scalar round trip", "statement": "Anything written with TBinaryProtocol's WriteBool/WriteByte/WriteI16/WriteI32/WriteI64/WriteDouble/WriteString/WriteBinary and then read back with the matching Read call returns the same value with no error and leaves every later byte of the transport unread.", "quantifier": "all values of each Go type (doubles as all 2^64 bit patterns, strings and byte slices as all byte sequences of length below 2^31) and all bytes that follow", "why_tests_cant": "value spaces of 2^64 doubles/i64 and unbounded strings cannot be enumerated", "anchors": ["lib/go/src/thrift/tbinary_protocol.go: WriteBool,WriteByte,WriteI16,WriteI32,WriteI64,WriteDouble,WriteString,WriteBinary,ReadBool,ReadByte,ReadI16,ReadI32,ReadI64,ReadDouble,ReadString,ReadBinary"]}
{"id": "C02", "title": "Binary wire layout", "statement": "The bytes TBinaryProtocol emits are the published Thrift binary encoding: fixed width big-endian two's complement integers, IEEE bits big-endian, 4-byte length prefixed strings, 1-byte type + 2-byte id field headers, 0 stop byte, type/size container headers.", "quantifier": "all arguments of every Write call", "why_tests_cant": "a round trip test is blind to a symmetric reader/writer mistake, and conformance must hold for every argument", "anchors": ["lib/go/src/thrift/tbinary_protocol.go: all Write methods"]}
{"id": "C03", "title": "Binary message envelope round trip", "statement": "A message header written by TBinaryProtocol in strict or non-strict mode is read back by a TBinaryProtocol reader (strict reader for strict writer, lenient reader for both) with the same name, message type and sequence id.", "quantifier": "all names, message types 0..255, sequence ids, both write modes and both read modes", "why_tests_cant": "products of modes, names and 2^32 sequence ids", "anchors": ["lib/go/src/thrift/tbinary_protocol.go: WriteMessageBegin,ReadMessageBegin"]}
{"id": "C04", "title": "Binary strict reader rejects unversioned or wrongly versioned messages", "statement": "A strict reader never accepts a message whose first word is not the version-1 marker, and no reader accepts a negative first word with another version; both report BAD_VERSION.", "quantifier": "all 2^32 first words and all following input", "why_tests_cant": "the set of malformed headers is huge", "anchors": ["lib/go/src/thrift/tbinary_protocol.go: ReadMessageBegin"]}
{"id": "C05", "title": "Binary structured value round trip", "statement": "Any well-typed Thrift value (scalars, strings, lists, sets, maps, structs nested to any depth) written through TBinaryProtocol is reconstructed exactly by the matching typed read, and consumption stops exactly at the end of the value.", "quantifier": "all types, all well-typed values of any nesting depth and all trailing bytes", "why_tests_cant": "unbounded nesting and sizes", "anchors": ["lib/go/src/thrift/tbinary_protocol.go: Write*/Read* container, struct and field methods"]}
{"id": "C06", "title": "Decoding does not depend on how the transport splits reads", "statement": "A TBinaryProtocol or TCompactProtocol read gives the same result and leaves the same unread bytes no matter how the transport cuts the byte stream into Read results, provided every Read makes progress.", "quantifier": "all byte streams, all partitions into non-empty chunks, all protocol read operations and all programs of them", "why_tests_cant": "exponentially many chunkings per input", "anchors": ["lib/go/src/thrift/ttransport.go: ReadAllTransport", "lib/go/src/thrift/tbinary_protocol.go: readAll", "lib/go/src/thrift/tcompact_protocol.go: Read*"]}
{"id": "C07", "title": "Truncated binary input is always reported", "statement": "If the transport ends before the encoding of a value is complete, the typed binary read returns an error; it never returns a value as if it were complete.", "quantifier": "all well-typed values, all proper prefixes of their encodings", "why_tests_cant": "number of (value, cut point) pairs is unbounded", "anchors": ["lib/go/src/thrift/tbinary_protocol.go: Read methods, readAll, readStringBody"]}
{"id": "C08", "title": "Skip consumes exactly one binary value", "statement": "Skip(type) on a TBinaryProtocol positioned at an encoded value of that type returns no error and leaves the transport positioned at the first byte after the value.", "quantifier": "all types and all well-typed values of any depth, all trailing bytes", "why_tests_cant": "unbounded values; needed for forward compatibility with unknown fields", "anchors": ["lib/go/src/thrift/tprotocol.go: Skip", "lib/go/src/thrift/tbinary_protocol.go: Skip"]}
{"id": "C09", "title": "Skip reports input errors", "statement": "If the input ends inside the value being skipped, Skip returns an error.", "quantifier": "all types, values and cut points", "why_tests_cant": "all truncation points of unbounded values", "anchors": ["lib/go/src/thrift/tprotocol.go: Skip"]}
{"id": "C10", "title": "Skip enforces the configured maximum depth", "statement": "Skip never recurses deeper than the maximum skip depth: values nested deeper than the limit are refused with a depth error.", "quantifier": "all limits and all nested inputs", "why_tests_cant": "the nesting depth is attacker controlled and unbounded", "anchors": ["lib/go/src/thrift/tprotocol.go: Skip,SkipDefaultDepth,SetMaxSkipDepth"]}
{"id": "C11", "title": "Malformed lengths never crash a binary reader", "statement": "For every byte stream, each TBinaryProtocol read operation returns (value or error) and never panics; a negative length or size is reported as an error.", "quantifier": "all byte streams and all read operations", "why_tests_cant": "all malformed inputs", "anchors": ["lib/go/src/thrift/tbinary_protocol.go: ReadString,ReadBinary,ReadListBegin,ReadMapBegin,ReadSetBegin"]}
{"id": "C12", "title": "Skip terminates on every input without panicking", "statement": "Skip over a TBinaryProtocol returns for every type and every byte stream, however malformed.", "quantifier": "all types and byte streams", "why_tests_cant": "termination for all inputs", "anchors": ["lib/go/src/thrift/tprotocol.go: Skip"]}
{"id": "C13", "title": "Zigzag coding is a bijection", "statement": "The compact protocol's zigzag maps are inverse bijections between signed and unsigned 32 and 64 bit integers and map small magnitudes to small codes.", "quantifier": "all 2^32 and 2^64 values", "why_tests_cant": "2^64 values", "anchors": ["lib/go/src/thrift/tcompact_protocol.go: int32ToZigzag,int64ToZigzag,zigzagToInt32,zigzagToInt64"]}
{"id": "C14", "title": "Varint coding round trip and size", "statement": "Every 32/64-bit integer written as a varint is read back exactly, uses at most 5/10 bytes, never uses more bytes than needed, and the reader stops at the last byte of the varint.", "quantifier": "all 2^32 and 2^64 values, all trailing bytes", "why_tests_cant": "2^64 values", "anchors": ["lib/go/src/thrift/tcompact_protocol.go: writeVarint32,writeVarint64,readVarint32,readVarint64"]}
{"id": "C15", "title": "Compact scalar round trip", "statement": "Anything written with TCompactProtocol's scalar writers outside a field (bool, byte, i16, i32, i64, double, string, binary) is read back unchanged with later bytes untouched.", "quantifier": "all values of each type, all trailing bytes", "why_tests_cant": "2^64 values and unbounded strings", "anchors": ["lib/go/src/thrift/tcompact_protocol.go: WriteBool..WriteBinary,ReadBool..ReadBinary"]}
{"id": "C16", "title": "Compact wire layout", "statement": "The bytes TCompactProtocol emits follow the Thrift compact encoding: zigzag varints, little-endian doubles, short/long field headers, packed list headers, map headers, type nibbles.", "quantifier": "all arguments of every Write call", "why_tests_cant": "symmetric errors are invisible to round-trip tests", "anchors": ["lib/go/src/thrift/tcompact_protocol.go: all Write methods"]}
{"id": "C17", "title": "Compact field headers round trip", "statement": "A sequence of field headers with any ids and non-boolean types written by TCompactProtocol is read back with the same ids and types, whatever mix of delta and long form the ids require.", "quantifier": "all sequences of 16-bit field ids and all types", "why_tests_cant": "all id sequences", "anchors": ["lib/go/src/thrift/tcompact_protocol.go: WriteFieldBegin,writeFieldBeginInternal,ReadFieldBegin"]}
{"id": "C18", "title": "Compact boolean fields round trip", "statement": "A struct field of type bool written with TCompactProtocol is read back with the same value, for true and for false.", "quantifier": "both values, all field ids and positions", "why_tests_cant": "must hold in every position of every message", "anchors": ["lib/go/src/thrift/tcompact_protocol.go: WriteBool,ReadBool,ReadFieldBegin,getTType"]}
{"id": "C19", "title": "Compact field ids survive nested structs", "statement": "After reading a nested struct, a TCompactProtocol reader recovers the enclosing struct's field numbering, so any nesting of structs reads back with the field ids it was written with.", "quantifier": "all struct values of any nesting depth", "why_tests_cant": "unbounded nesting", "anchors": ["lib/go/src/thrift/tcompact_protocol.go: ReadStructBegin,ReadStructEnd,WriteStructBegin,WriteStructEnd"]}
{"id": "C20", "title": "Compact message envelope round trip", "statement": "A message header written by TCompactProtocol is read back with the same name, message type (CALL, REPLY, EXCEPTION, ONEWAY) and sequence id.", "quantifier": "all names, the four message types, all 2^32 sequence ids", "why_tests_cant": "2^32 sequence ids and unbounded names", "anchors": ["lib/go/src/thrift/tcompact_protocol.go: WriteMessageBegin,ReadMessageBegin"]}
{"id": "C21", "title": "Truncated compact input is always reported", "statement": "If the transport ends inside a compact-encoded scalar or string, the read returns an error.", "quantifier": "all values and cut points", "why_tests_cant": "unbounded", "anchors": ["lib/go/src/thrift/tcompact_protocol.go: ReadBinary,ReadString,readVarint64,ReadDouble,ReadByte"]}
{"id": "C22", "title": "Malformed lengths never crash a compact reader", "statement": "For every byte stream each TCompactProtocol read returns a value or an error and never panics.", "quantifier": "all byte streams and all read operations", "why_tests_cant": "all malformed inputs", "anchors": ["lib/go/src/thrift/tcompact_protocol.go: ReadBinary,ReadString"]}
{"id": "C23", "title": "Compact container headers round trip", "statement": "List, set and map headers written by TCompactProtocol are read back with the same element types and size.", "quantifier": "all element types and all sizes from 0 to 2^31-1", "why_tests_cant": "2^31 sizes times types", "anchors": ["lib/go/src/thrift/tcompact_protocol.go: WriteMapBegin,WriteListBegin,WriteSetBegin,writeCollectionBegin,ReadMapBegin,ReadListBegin,ReadSetBegin"]}
{"id": "C24", "title": "Compact structured value round trip", "statement": "Any well-typed value written through TCompactProtocol is reconstructed exactly by the matching typed read.", "quantifier": "all types and well-typed values of any nesting", "why_tests_cant": "unbounded nesting and sizes", "anchors": ["lib/go/src/thrift/tcompact_protocol.go: all Read/Write methods"]}
{"id": "C25", "title": "Skip consumes exactly one compact value", "statement": "Skip(type) on a TCompactProtocol positioned at an encoded value leaves it at the first byte after the value, with its field numbering intact.", "quantifier": "all types and values of any depth", "why_tests_cant": "unbounded", "anchors": ["lib/go/src/thrift/tprotocol.go: Skip", "lib/go/src/thrift/tcompact_protocol.go: Read methods"]}
{"id": "C26", "title": "ReadAll delivers exactly the requested bytes or an error", "statement": "ReadAllTransport either fills the whole buffer with the next bytes of the stream and reports success, or reports an error; it never silently returns short.", "quantifier": "all transports behaving per io.Reader (any chunk sizes, 0-byte reads, data together with an error), all sizes", "why_tests_cant": "schedule of Read results is unbounded", "anchors": ["lib/go/src/thrift/ttransport.go: ReadAllTransport"]}
{"id": "C27", "title": "Framed transport preserves the byte stream", "statement": "The bytes written to a TFramedTransport, with Flush at any points, are read back on the other side as the same byte sequence, whatever the caller's read sizes and the chunking below.", "quantifier": "all sequences of writes and flushes, all read sizes, all chunkings of the underlying stream", "why_tests_cant": "unbounded histories times chunkings", "anchors": ["lib/go/src/thrift/tframed_transport.go: Read,Write,Flush,readFrame"]}
{"id": "C28", "title": "Framed transport framing", "statement": "Each Flush emits exactly one frame: a 4-byte big-endian length followed by exactly the bytes written since the previous Flush; nothing reaches the underlying transport between flushes.", "quantifier": "all write/flush histories", "why_tests_cant": "unbounded histories", "anchors": ["lib/go/src/thrift/tframed_transport.go: Write,Flush"]}
{"id": "C29", "title": "Framed transport reports broken frames", "statement": "A frame whose payload is cut off, or whose length cannot be honoured, makes Read return an error, and Read never returns bytes of an incomplete frame.", "quantifier": "all truncated streams", "why_tests_cant": "all cut points and lengths", "anchors": ["lib/go/src/thrift/tframed_transport.go: Read,readFrame"]}
{"id": "C30", "title": "Memory buffer is a FIFO", "statement": "Bytes come out of a TMemoryBuffer in the order they were written, each exactly once, and an empty buffer reports end of file.", "quantifier": "all interleavings of writes and reads of any sizes", "why_tests_cant": "unbounded histories", "anchors": ["lib/go/src/thrift/tmemory_buffer.go: TMemoryBuffer"]}
{"id": "C31", "title": "Stream transport write/close behaviour", "statement": "A TIOStreamTransport never panics on Write, and after Close no further byte reaches the wrapped writer.", "quantifier": "all histories of Write/Flush/Close on all constructor variants", "why_tests_cant": "unbounded histories", "anchors": ["lib/go/src/thrift/tiostream_transport.go: Write,Close,Read,Flush"]}
{"id": "C32", "title": "Socket connection isolation", "statement": "Bytes written to a TSocket reach only the connection that was open when they were written; closing discards anything unflushed.", "quantifier": "all histories of Open/Write/Flush/Close including failing operations", "why_tests_cant": "unbounded histories with failures", "anchors": ["lib/go/src/thrift/tsocket.go: Open,Close,Write,Flush,Interrupt"]}
{"id": "C33", "title": "HTTP client request lifecycle", "statement": "Each Flush of a THttpClient posts exactly the bytes written since the last Flush; Read before a response is an error; Close makes the client not open.", "quantifier": "all histories of Write/Flush/Read/Close, all server statuses", "why_tests_cant": "unbounded histories", "anchors": ["lib/go/src/thrift/thttp_client.go"]}
{"id": "C34", "title": "Server socket lifecycle", "statement": "Accept on a server socket never succeeds when not listening or after Interrupt; Listen, Close and Interrupt are idempotent.", "quantifier": "all histories of Listen/Open/Accept/Interrupt/Close", "why_tests_cant": "unbounded histories", "anchors": ["lib/go/src/thrift/tserver_socket.go", "lib/go/src/thrift/tnonblocking_server_socket.go"]}
{"id": "C35", "title": "Servers close every connection and stop when told", "statement": "Every connection accepted by TSimpleServer/TNonblockingServer has both its transports closed exactly once after its request loop ends, and after Stop no new connection is served.", "quantifier": "all sequences of accept results and processor results, all points at which Stop is called, all goroutine interleavings", "why_tests_cant": "schedules are unbounded", "anchors": ["lib/go/src/thrift/tsimple_server.go: Serve,Stop,processRequest", "lib/go/src/thrift/tnonblocking_server.go: Serve,Stop,processRequest"]}
{"id": "C36", "title": "Comparison is a total order on scalars", "statement": "For each scalar type, TType.Compare is antisymmetric, transitive, total and agrees with equality.", "quantifier": "all pairs/triples of values of each scalar type", "why_tests_cant": "2^64-value domains", "anchors": ["lib/go/src/thrift/ttype.go: Compare", "lib/go/src/thrift/tcompare.go"]}
{"id": "C37", "title": "TSet behaves as a mathematical set", "statement": "After any sequence of Add and Remove, Contains, Len and Values describe exactly the set of elements added and not removed since.", "quantifier": "all histories over all totally ordered element types", "why_tests_cant": "unbounded histories", "anchors": ["lib/go/src/thrift/tset.go: Add,Remove,Contains,Len,Values"]}
{"id": "C38", "title": "TList behaves as a sequence", "statement": "Push/Pop/Insert/Delete/Set/Swap/At/Len on a TList agree with the usual sequence operations, and no in-contract call panics.", "quantifier": "all histories and all indices", "why_tests_cant": "unbounded histories", "anchors": ["lib/go/src/thrift/tlist.go"]}
{"id": "C39", "title": "TMap behaves as a finite map", "statement": "After any sequence of Set calls on a TMap, Get of a key returns the last value set for it, Contains is true exactly for set keys, and Len is the number of distinct keys.", "quantifier": "all histories, all key types", "why_tests_cant": "unbounded histories", "anchors": ["lib/go/src/thrift/tmap.go: Set,Get,Contains,Len,Keys,Values"]}
{"id": "C40", "title": "Field container lookups are consistent", "statement": "In a TFieldContainer lookup by id, by name and position agree: for every field in a container with distinct ids and names, looking up its id gives the field, its name gives the id, unknown ids/names give the anonymous field / -1.", "quantifier": "all lists of fields", "why_tests_cant": "unbounded lists", "anchors": ["lib/go/src/thrift/tfield.go: NewTFieldContainer,FieldFromFieldId,FieldFromFieldName,FieldIdFromFieldName,FieldNameFromFieldId,At"]}
{"id": "C41", "title": "Field equality agrees with field comparison", "statement": "TField.Equals(f) holds exactly when CompareTo(f) is 0, and container equality is symmetric.", "quantifier": "all pairs of fields/containers", "why_tests_cant": "all names, types, ids", "anchors": ["lib/go/src/thrift/tfield.go: tField.CompareTo,tField.Equals,tFieldContainer.Equals,tFieldContainer.CompareTo"]}
{"id": "C42", "title": "Error classification is preserved", "statement": "Wrapping an error with the transport/protocol exception constructors preserves its classification: nil stays nil, end of file maps to END_OF_FILE, an already classified error keeps its class, a transport error code never turns into an unrelated protocol error code.", "quantifier": "all errors", "why_tests_cant": "all error values", "anchors": ["lib/go/src/thrift/ttransport_exception.go: NewTTransportExceptionFromOsError", "lib/go/src/thrift/tprotocol_exception.go: NewTProtocolExceptionFromOsError"]}
{"id": "C43", "title": "Application exceptions round trip", "statement": "A TApplicationException written with any of the protocols is read back with the same message and type; unknown extra fields written by a newer peer are ignored.", "quantifier": "all messages, all type ids, all extra fields of any type and position, binary and compact protocols", "why_tests_cant": "unbounded messages and extra fields", "anchors": ["lib/go/src/thrift/tapplication_exception.go: Read,Write"]}
{"id": "C44", "title": "Processor answers each request exactly once", "statement": "For every call the generated processor writes exactly one reply message carrying the request's name and sequence id: REPLY with the handler's result, or EXCEPTION for a handler error, an unknown method or malformed arguments.", "quantifier": "all request contents, method names, sequence ids, handler outcomes", "why_tests_cant": "all inputs and handler behaviours", "anchors": ["tests/generation/golden/gen-go/simple/ContainerOfEnumsTestService.go: Process"]}
{"id": "C45", "title": "Client accepts only the matching reply", "statement": "The generated client returns a result only from a REPLY whose sequence id is the one it just sent; an EXCEPTION message becomes an error; a mismatching sequence id is an error.", "quantifier": "all replies", "why_tests_cant": "all replies and sequence ids", "anchors": ["tests/generation/golden/gen-go/simple/ContainerOfEnumsTestService.go: RecvEcho,SendEcho"]}
{"id": "C46", "title": "Client uses the configured protocol", "statement": "A client built with explicit input and output protocols writes its requests through the given output protocol.", "quantifier": "all constructor variants", "why_tests_cant": "both constructors, all calls", "anchors": ["tests/generation/golden/gen-go/simple/ContainerOfEnumsTestService.go: SendEcho", "compiler/cpp/src/generate/t_go_generator.cc: generate_service_client"]}
{"id": "C47", "title": "End-to-end call", "statement": "A call through the generated client, a transport pair and the generated processor returns to the caller exactly what the handler returned for exactly the argument passed, for every sequence of calls.", "quantifier": "all arguments, handlers and call sequences", "why_tests_cant": "unbounded call sequences", "anchors": ["tests/generation/golden/gen-go/simple/ContainerOfEnumsTestService.go"]}
{"id": "C48", "title": "Generated structs round trip", "statement": "A struct written by generated Write code and read by generated Read code of the same schema has the same fields, unset fields staying unset.", "quantifier": "all schemas, all field values", "why_tests_cant": "all schemas", "anchors": ["compiler/cpp/src/generate/t_go_generator.cc: generate_go_struct_reader,generate_go_struct_writer,generate_isset_helpers", "tests/generation/golden/gen-go/simple/ttypes.go: ContainerOfEnums"]}
{"id": "C49", "title": "Generated readers ignore unknown fields", "statement": "A generated reader given a struct written by a newer schema with extra fields reads its own fields unchanged and ends exactly after the struct.", "quantifier": "all schemas, all extra fields of any type/value/position", "why_tests_cant": "unbounded", "anchors": ["compiler/cpp/src/generate/t_go_generator.cc: generate_go_struct_reader", "tests/generation/golden/gen-go/simple/ttypes.go: Read"]}
{"id": "C50", "title": "Generated readers skip fields of unexpected type", "statement": "A known field id arriving with a different wire type is skipped and does not disturb the following fields.", "quantifier": "all wire types and values", "why_tests_cant": "unbounded", "anchors": ["compiler/cpp/src/generate/t_go_generator.cc: generate_go_struct_reader", "tests/generation/golden/gen-go/simple/ttypes.go: Read"]}
{"id": "C51", "title": "Generated field dispatch honours field ids", "statement": "Each field on the wire is stored in the member with the same id, for every id the IDL allows (including negative ids).", "quantifier": "all schemas and ids", "why_tests_cant": "all ids", "anchors": ["compiler/cpp/src/generate/t_go_generator.cc: generate_go_struct_reader", "tests/generation/golden/gen-go/simple/ttypes.go: Read"]}
{"id": "C52", "title": "Enum string conversion round trip", "statement": "FromXString(x.String()) gives back x for every declared enum constant, and undeclared values/strings map to the documented unset markers.", "quantifier": "all enum definitions with distinct names and values, all values and strings", "why_tests_cant": "all enums, values and strings", "anchors": ["compiler/cpp/src/generate/t_go_generator.cc: generate_enum", "tests/generation/golden/gen-go/simple/ttypes.go"]}
{"id": "C53", "title": "Generated identifiers are valid and distinct", "statement": "The generator never emits a Go keyword as an identifier for an IDL name, exported names start with an upper case letter, and distinct fields of a struct get distinct Go names.", "quantifier": "all IDL identifiers", "why_tests_cant": "all strings", "anchors": ["compiler/cpp/src/generate/t_go_generator.cc: publicize,privatize,variable_name_to_go_name"]}
{"id": "C54", "title": "JSON type names are a bijection", "statement": "TJSONProtocol's wire name of each Thrift type is read back as the same type.", "quantifier": "all type ids", "why_tests_cant": "small but must match in both directions for all ids incl. unknown strings", "anchors": ["lib/go/src/thrift/tjson_protocol.go: TypeIdToString,StringToTypeId"]}
{"id": "C55", "title": "JSON strings round trip", "statement": "Every string written by the JSON protocols is read back unchanged.", "quantifier": "all byte strings / all UTF-8 strings", "why_tests_cant": "unbounded strings and all escapes", "anchors": ["lib/go/src/thrift/tsimple_json_protocol.go: OutputString,ParseStringBody,ParseQuotedStringBody"]}
{"id": "C56", "title": "JSON binary round trip", "statement": "Every byte slice written by WriteBinary of the JSON protocols (base64) is read back unchanged.", "quantifier": "all byte slices", "why_tests_cant": "unbounded", "anchors": ["lib/go/src/thrift/tsimple_json_protocol.go: WriteBinary,ReadBinary,ParseBase64EncodedBody"]}
{"id": "C57", "title": "JSON integers round trip", "statement": "Every integer written by the JSON protocols is read back unchanged.", "quantifier": "all 64-bit integers", "why_tests_cant": "2^64 values", "anchors": ["lib/go/src/thrift/tsimple_json_protocol.go: OutputI64,ReadI64,ParseI64,readNumeric", "lib/go/src/thrift/tnumeric.go: NewNumericFromJSONString"]}
{"id": "C58", "title": "JSON output is well formed", "statement": "Any properly nested sequence of TSimpleJSONProtocol writes produces syntactically valid JSON with commas and colons in the right places.", "quantifier": "all properly nested write sequences", "why_tests_cant": "unbounded sequences", "anchors": ["lib/go/src/thrift/tsimple_json_protocol.go: OutputPreValue,OutputPostValue,Output*Begin,Output*End"]}
{"id": "C59", "title": "JSON structured value round trip", "statement": "Any well-typed value written through TJSONProtocol is reconstructed exactly by the matching typed read.", "quantifier": "all types and values", "why_tests_cant": "unbounded", "anchors": ["lib/go/src/thrift/tjson_protocol.go", "lib/go/src/thrift/tsimple_json_protocol.go"]}
{"id": "C60", "title": "JSON decoding does not depend on read chunking", "statement": "A JSON protocol read gives the same result however the transport cuts the stream into Read results.", "quantifier": "all documents and chunkings", "why_tests_cant": "exponentially many chunkings", "anchors": ["lib/go/src/thrift/tsimple_json_protocol.go: ParsePreValue,ParsePostValue", "lib/go/src/thrift/tjson_protocol.go: ReadFieldBegin"]}
{"id": "C61", "title": "Write errors are reported", "statement": "If the transport's Write fails during a protocol write operation, the operation returns an error and writes nothing more.", "quantifier": "all operations, all arguments, all failure points", "why_tests_cant": "all failure points", "anchors": ["lib/go/src/thrift/tbinary_protocol.go: Write methods", "lib/go/src/thrift/tcompact_protocol.go: Write methods"]}
{"id": "C62", "title": "Type predicates partition the type ids", "statement": "Container, base, struct, number and integer predicates of TType are consistent with one another and with what Compare/Coerce accept.", "quantifier": "all type ids", "why_tests_cant": "must hold for all 256 ids", "anchors": ["lib/go/src/thrift/ttype.go: IsBaseType,IsEmptyType,IsEnum,IsNumber,IsContainer,IsStruct,IsMap,IsList,IsSet,IsInt"]}
{"id": "C63", "title": "Numeric strings coerce to their value", "statement": "Coercing a decimal string to an integer or double type yields the number it denotes; malformed strings are rejected.", "quantifier": "all strings", "why_tests_cant": "all strings", "anchors": ["lib/go/src/thrift/ttype.go: CoerceData"]}
{"id": "C64", "title": "Coercion is idempotent", "statement": "A value that coerces to a type coerces to it again unchanged, and coerced values of integer types keep the number when it fits.", "quantifier": "all values and types", "why_tests_cant": "all values", "anchors": ["lib/go/src/thrift/ttype.go: CoerceData"]}
{"id": "C65", "title": "Comparison of lists and sets is a total order", "statement": "TType.Compare on lists and sets of scalars, nested to any depth, orders by element type, then length, then the first differing element; the order is total and Equals agrees with it.", "quantifier": "all lists and sets, all nesting depths", "why_tests_cant": "infinitely many nested values", "anchors": ["lib/go/src/thrift/ttype.go: Compare,CompareValueArrays", "lib/go/src/thrift/tlist.go: Equals,CompareTo", "lib/go/src/thrift/tset.go: Equals,CompareTo"]}
{"id": "C66", "title": "Less means precedes", "statement": "Less(a, b) holds exactly when a precedes b in the order of Compare.", "quantifier": "all values", "why_tests_cant": "all pairs of values", "anchors": ["lib/go/src/thrift/tlist.go: Less", "lib/go/src/thrift/ttype.go: Less"]}
{"id": "C67", "title": "The JSON readers return on every input", "statement": "Every read call of the JSON protocols, and Skip, returns a value or an error on any bytes delivered in any way; none panics or runs for ever.", "quantifier": "all inputs, all transports, all sequences of calls", "why_tests_cant": "all malformed inputs and all deliveries", "anchors": ["lib/go/src/thrift/tsimple_json_protocol.go: Read*,Parse*", "lib/go/src/thrift/tjson_protocol.go: Read*", "lib/go/src/thrift/tprotocol.go: Skip"]}
{"id": "C68", "title": "The JSON protocols report write errors", "statement": "A write call of TSimpleJSONProtocol or TJSONProtocol returns nil only if every Write it made to the transport succeeded; after a Write fails it makes no more and returns that error as a protocol exception.", "quantifier": "all write calls, all values, all transports and all failures", "why_tests_cant": "each call makes several Writes and any of them may fail", "anchors": ["lib/go/src/thrift/tsimple_json_protocol.go: Write*,Output*", "lib/go/src/thrift/tjson_protocol.go: Write*"]}
{"id": "C69", "title": "Skip over TCompactProtocol returns on every input", "statement": "Skip of any type over TCompactProtocol returns on any bytes delivered in any way; it does not panic or run for ever, and it only reads on.", "quantifier": "all inputs, all transports, all types and depths", "why_tests_cant": "all malformed inputs and all deliveries", "anchors": ["lib/go/src/thrift/tcompact_protocol.go: Read*", "lib/go/src/thrift/tprotocol.go: Skip"]}
{"id": "C70", "title": "The JSON readers refuse malformed input", "statement": "A read call of the JSON protocols that meets text which is not a value of its kind (missing separator, wrong first character, bad header part, wrong message version, bad string escape, bad number, nothing) returns an error.", "quantifier": "all read calls, all contexts, all texts", "why_tests_cant": "all malformed texts in all contexts", "anchors": ["lib/go/src/thrift/tsimple_json_protocol.go: Read*,Parse*", "lib/go/src/thrift/tjson_protocol.go: Read*"]}
{"id": "C71", "title": "Generated structs round-trip over TJSONProtocol", "statement": "A struct written by its generated Write to TJSONProtocol and read by its generated Read has the same contents; fields the reading type does not know are skipped, and a reader of an older version of the type reads the fields it knows.", "quantifier": "all struct types, all values, all cuts of the text into Reads, all older/newer versions", "why_tests_cant": "all schemas with nesting, all values, all texts of unknown fields", "anchors": ["compiler/cpp/src/generate/t_go_generator.cc: generate_go_struct_reader,generate_go_struct_writer", "lib/go/src/thrift/tjson_protocol.go"]}
{"id": "C72", "title": "Generated code reports failed writes", "statement": "A generated Write returns an error exactly when a Write of the transport failed, writes nothing after it, and without an error has written the whole value; a processor says success only if the whole reply is in the transport and was flushed.", "quantifier": "all struct types, values, services, handlers, requests, results of the transport's Write and Flush calls", "why_tests_cant": "any of the Write calls of any value may fail, after any number of bytes", "anchors": ["compiler/cpp/src/generate/t_go_generator.cc: generate_go_struct_writer,generate_process_function,generate_service_client", "lib/go/src/thrift/tprotocol_exception.go"]}
{"id": "C73", "title": "Generated constants have the value the IDL gives", "statement": "The Go declaration generated for an IDL constant compiles, and the constant or variable it declares holds the value the IDL names: elements of lists in order, every element of a set, every key of a map with its value, every listed member of a struct, members not listed as the constructor leaves them.", "quantifier": "all types (typedefs, enums, nested containers, structs), all constants of the type, all names", "why_tests_cant": "constants nest without bound and each nesting is rendered by temporaries that must not clash", "anchors": ["compiler/cpp/src/generate/t_go_generator.cc: generate_const,render_const_value", "lib/go/src/thrift/tlist.go", "lib/go/src/thrift/tset.go", "lib/go/src/thrift/tmap.go"]}
{"id": "C74", "title": "Generated constructors set the default values", "statement": "New<Struct>() compiles and returns an object in which every member with a default holds that default, an enum member without one is unset, and every other member has its zero value.", "quantifier": "all structs, all defaults", "why_tests_cant": "all combinations of members, types and defaults", "anchors": ["compiler/cpp/src/generate/t_go_generator.cc: generate_go_struct_definition,render_field_default_value,render_const_value"]}
{"id": "C75", "title": "Protocols read the same through every transport", "statement": "Reading with TBinaryProtocol or TCompactProtocol from TFramedTransport, TIOStreamTransport, TMemoryBuffer, THttpClient, TSocket or TNonblockingSocket gives exactly what reading the transported bytes directly gives: same values, same errors, same panics, for any sequence of protocol calls (each may depend on earlier results) and for generated Read methods.", "quantifier": "all transports of the library, all byte sequences, all divisions into frames and pieces, all programs of protocol calls, all generated structs", "why_tests_cant": "framing, buffering and partial reads interact with every place a protocol reads", "anchors": ["lib/go/src/thrift/tframed_transport.go: Read,readFrame", "lib/go/src/thrift/tiostream_transport.go: Read", "lib/go/src/thrift/tmemory_buffer.go", "lib/go/src/thrift/thttp_client.go: Read", "lib/go/src/thrift/tsocket.go: Read", "lib/go/src/thrift/tbinary_protocol.go", "lib/go/src/thrift/tcompact_protocol.go"]}
{"id": "C76", "title": "Protocols write the same through every transport", "statement": "Writing with TBinaryProtocol or TCompactProtocol to TFramedTransport, TIOStreamTransport, TMemoryBuffer, THttpClient, TSocket or TNonblockingSocket and flushing returns what writing to a plain transport returns, and the other side gets exactly the bytes a plain transport gets (as one frame, one POST body, or directly).", "quantifier": "all transports of the library, all sequences of write calls, all generated structs and values", "why_tests_cant": "values of every size and shape against every buffering transport", "anchors": ["lib/go/src/thrift/tframed_transport.go: Write,Flush", "lib/go/src/thrift/tiostream_transport.go: Write,Flush", "lib/go/src/thrift/tmemory_buffer.go", "lib/go/src/thrift/thttp_client.go: Write,Flush", "lib/go/src/thrift/tsocket.go: Write,Flush", "lib/go/src/thrift/tnonblocking_socket.go: Write,Flush"]}
{"id": "C77", "title": "Calls over framed transports", "statement": "A generated processor gives the same replies, errors and handler states over any of the library's transports as over plain ones; a generated client and processor exchanging frames, cut anyhow on the way, give for every sequence of calls the results they give over plain pipes, as long as every message is shorter than 2^31 bytes.", "quantifier": "all services, handlers, sequences of calls, cuttings", "why_tests_cant": "histories of calls and divisions of the byte streams are unbounded", "anchors": ["lib/go/src/thrift/tframed_transport.go", "compiler/cpp/src/generate/t_go_generator.cc: generate_service_client,generate_service_server"]}
{"id": "C78", "title": "Reading through a transport reports the failures of the source", "statement": "When the source of a TIOStreamTransport (buffered or not), THttpClient, TSocket or TNonblockingSocket delivers bytes and then fails, successive Reads deliver exactly those bytes, in order and once, and the first error reported comes only when all of them have been delivered and is the source's error (as a TTransportException).", "quantifier": "all sources (any pieces, errors with or without data), all sequences of buffer lengths", "why_tests_cant": "the buffered reader must keep an error that arrives with data until the data is used up, for every division of the data", "anchors": ["lib/go/src/thrift/tiostream_transport.go: Read", "lib/go/src/thrift/thttp_client.go: Read", "lib/go/src/thrift/tsocket.go: Read", "lib/go/src/thrift/tnonblocking_socket.go: Read", "lib/go/src/thrift/ttransport_exception.go: NewTTransportExceptionFromOsError"]}
{"id": "C79", "title": "Generated structs over TSimpleJSONProtocol", "statement": "A generated Write over TSimpleJSONProtocol produces one JSON object with the members' names as keys (binaries in base64, containers as arrays headed by their types and size); a generated Read of that text gives back the same contents, the keys in any order. A key the reader does not know makes every Read fail with INVALID_DATA, so a reader of an older schema reads nothing in which a newer member is set.", "quantifier": "all schemas, all values of them, all divisions of the text into chunks that do not end at a position where the reader looks at its buffer without filling it", "why_tests_cant": "schemas and values are nested without bound; the reader's behaviour depends on where the chunks end", "anchors": ["lib/go/src/thrift/tsimple_json_protocol.go: ReadFieldBegin, ReadMapBegin, WriteFieldBegin, ParsePreValue", "compiler/cpp/src/generate/t_go_generator.cc: generate_go_struct_reader, generate_go_struct_writer", "lib/go/src/thrift/tfield.go: FieldIdFromFieldName, FieldFromFieldId"]}
{"id": "C80", "title": "Containers without an element type take the type of their first value", "statement": "TypeFromValue gives the Thrift type a Go value stands for, and coercing the value to that type leaves it unchanged; a list or map made without types behaves, from the first value it is given, like one made with that value's type. The same should hold for sets and for every Go value TypeFromValue has a case for.", "quantifier": "all values of every type, all sequences of pushes and sets", "why_tests_cant": "values and histories are unbounded", "anchors": ["lib/go/src/thrift/ttype.go: TypeFromValue, CoerceData", "lib/go/src/thrift/tlist.go: Push", "lib/go/src/thrift/tset.go: Add", "lib/go/src/thrift/tmap.go: Set"]}
{"id": "C81", "title": "The generated command-line client compiles", "statement": "For every service, the command-line client the generator writes uses every package it imports, and hands each argument to the client's method with the Go type the method takes.", "quantifier": "all services, all argument types and typedefs", "why_tests_cant": "services are unbounded; the golden file is only compared, not compiled", "anchors": ["compiler/cpp/src/generate/t_go_generator.cc: generate_service_remote, generate_typedef, argument_list, type_to_go_type", "tests/generation/golden/gen-go/simple/ContainerOfEnumsTestService/ContainerOfEnumsTestService-remote.go"]}
{"id": "C82", "title": "The command-line client passes on what the words of the command line say", "statement": "A word of the command line is passed to the call as the value it says for the argument's type: a decimal number in range, true or false, text, or a value in the form TSimpleJSON writes; a word that says none is refused.", "quantifier": "all functions, argument positions, types and words", "why_tests_cant": "words and types are unbounded", "anchors": ["compiler/cpp/src/generate/t_go_generator.cc: generate_service_remote"]}
{"id": "C83", "title": "The command-line client makes the call asked for, or says that it did not", "statement": "The command-line client makes exactly one call, of the function named and with the arguments given, over the protocol asked for, if the function is one of the service's and the arguments fit, and otherwise none; if it makes none it ends with a status other than 0.", "quantifier": "all services, command lines and outcomes of the network", "why_tests_cant": "command lines and services are unbounded", "anchors": ["compiler/cpp/src/generate/t_go_generator.cc: generate_service_remote"]}
{"id": "C84", "title": "The command-line client connects to the address it was given", "statement": "The command-line client opens no transport but the one its flags name: the URL of -u, or the host of -h and the port of -p, over HTTP or a framed socket if asked for.", "quantifier": "all flags and outcomes of the network", "why_tests_cant": "flags are unbounded and tests would need a network", "anchors": ["compiler/cpp/src/generate/t_go_generator.cc: generate_service_remote"]}
{"id": "C85", "title": "Generated structs are compared by their members", "statement": "Two structs of a generated type are equal to CompareTo, Equals, TList.Contains, TSet.Add and TMap.Set exactly if their members are equal; so a set of structs or a map with struct keys that is read has every element and entry that was sent.", "quantifier": "all struct types with distinct ids, all member values, all containers of them", "why_tests_cant": "member values and containers are unbounded; the tests use structs with one value each", "anchors": ["compiler/cpp/src/generate/t_go_generator.cc: generate_go_struct_definition (CompareTo, AttributeByFieldId, TStructFields)", "lib/go/src/thrift/tstruct.go: AttributeFromFieldId, Equals, CompareTo", "lib/go/src/thrift/ttype.go: Compare"]}
{"id": "C86", "title": "A generated struct type is valid Go", "statement": "For every struct with distinct ids and names that are identifiers, the Go type the generator declares for it has only fields of some type, and its fields and methods have valid and different names.", "quantifier": "all member lists: ids, names, requiredness, types", "why_tests_cant": "the names and ids of members are unbounded; the clashes need particular names next to each other", "anchors": ["compiler/cpp/src/generate/t_go_generator.cc: generate_go_struct_definition, generate_isset_helpers, generate_go_struct_reader, generate_go_struct_writer", "compiler/cpp/src/generate/t_go_generator.cc: publicize, variable_name_to_go_name"]}
{"id": "C87", "title": "A generated struct is a thrift.TStruct", "statement": "A pointer to every generated struct whose type is valid Go has the methods of thrift.TStruct, so that a list of structs keeps it and the generated code writes it.", "quantifier": "all member lists, all member values, all lists of structs, all protocols", "why_tests_cant": "depends on the names of members, which shadow promoted methods; the compiler gives no error", "anchors": ["compiler/cpp/src/generate/t_go_generator.cc: generate_go_struct_definition", "lib/go/src/thrift/tstruct.go: TStruct", "lib/go/src/thrift/ttype.go: CoerceData", "lib/go/src/thrift/tlist.go: Push"]}
{"id": "C88", "title": "A Numeric is the number it was made from", "statement": "A Numeric made from an integer, a float64 or a text gives that number back from every accessor whose type holds it, its String is the text of the number, and a text that is no number is noticed.", "quantifier": "all int64 and float64 values, all texts", "why_tests_cant": "64-bit values and texts are unbounded; the repository has no test of tnumeric.go", "anchors": ["lib/go/src/thrift/tnumeric.go: NewNumericFromI64, NewNumericFromI32, NewNumericFromDouble, NewNumericFromString, NewNumericFromJSONString"]}
{"id": "C89", "title": "Message headers are told apart", "statement": "Equals of two message headers holds exactly if their names, types and sequence ids are equal, and headers that differ have different texts.", "quantifier": "all names, types and sequence ids", "why_tests_cant": "names and ids are unbounded", "anchors": ["lib/go/src/thrift/tmessage.go: Equals, String"]}
{"id": "C90", "title": "Generated files follow Go's rules for imports", "statement": "In every file generated for a program, imports come before declarations, each imported package is used, each package named is imported, none is imported twice, and the package does not import itself.", "quantifier": "all programs (includes, typedefs, enums, constants, structs, services)", "why_tests_cant": "tests compile the files of a few fixed programs, none of which includes another; programs are unbounded", "anchors": ["compiler/cpp/src/generate/t_go_generator.cc: init_generator, render_includes, go_imports, generate_service, generate_typedef, generate_enum, generate_const, generate_go_struct_definition"]}
{"id": "C91", "title": "A generated package declares each name once", "statement": "The types, functions, constants and variables that the files generated for a program declare at package level all have different names.", "quantifier": "all programs", "why_tests_cant": "clashes depend on which names meet in one program; programs are unbounded", "anchors": ["compiler/cpp/src/generate/t_go_generator.cc: publicize, privatize, generate_typedef, generate_enum, generate_const, generate_go_struct_definition, generate_service_interface, generate_service_client, generate_service_server, generate_process_function, generate_go_function_helpers"]}
{"id": "C92", "title": "The methods of a generated client have distinct variables", "statement": "In each of the three methods generated for a function of a service, receiver, parameters, results and the variables of the body have different names, and none hides something the body uses.", "quantifier": "all functions: names, arguments, return types, exceptions", "why_tests_cant": "names of arguments and exceptions are unbounded", "anchors": ["compiler/cpp/src/generate/t_go_generator.cc: function_signature_if, function_signature, argument_list, variable_name_to_go_name, generate_service_client"]}
{"id": "C93", "title": "A generated package declares the names it uses", "statement": "Every name that a file generated for a program uses without a package in front of it is declared in that package.", "quantifier": "all programs", "why_tests_cant": "names are transformed differently where they are declared and where they are used; names are unbounded", "anchors": ["compiler/cpp/src/generate/t_go_generator.cc: publicize, privatize, type_to_go_type, generate_service_client, generate_service_server, generate_process_function, generate_go_function_helpers"]}
{"id": "C94", "title": "Generated files lie in the directory of their module and name a valid package", "statement": "The directory of a program's files is the output directory followed by the pieces of its module, every directory is made after its parent, and the package clause of the files names the last piece, which is a valid Go package name.", "quantifier": "all output directories, modules (namespaces or program names) and service lists", "why_tests_cant": "tests generate a few programs with plain one-piece modules", "anchors": ["compiler/cpp/src/generate/t_go_generator.cc: get_real_go_module, init_generator, go_package"]}
{"id": "C95", "title": "No generated file overwrites another", "statement": "ttypes.go and the two files of every service of a program have different paths.", "quantifier": "all lists of service names", "why_tests_cant": "needs every combination of service names", "anchors": ["compiler/cpp/src/generate/t_go_generator.cc: init_generator, generate_service, generate_service_remote"]}
{"id": "C96", "title": "The go tool builds every generated service file", "statement": "The file generated for a service is part of its package on every platform, by the rules the go tool has for file names.", "quantifier": "all service names, operating systems and architectures", "why_tests_cant": "the file of an unlucky name is left out silently, on some platforms only", "anchors": ["compiler/cpp/src/generate/t_go_generator.cc: generate_service"]}
{"id": "C97", "title": "Generated imports designate the generated packages", "statement": "The import path printed for an included or extended program is the directory its files lie in, and the qualifier printed before its names is its package name; the same for the import of a remote client.", "quantifier": "all modules and source roots", "why_tests_cant": "tests have no program that includes another", "anchors": ["compiler/cpp/src/generate/t_go_generator.cc: render_includes, generate_service, generate_service_remote, type_name"]}
{"id": "C98", "title": "Documentation becomes one Go comment", "statement": "What is printed for the documentation of a typedef, enum, service, struct or function, and of the members, is one Go comment and nothing else.", "quantifier": "all documentation texts without an end of a comment in them, all member names", "why_tests_cant": "texts are unbounded; one character at the start of a line matters", "anchors": ["compiler/cpp/src/generate/t_go_generator.cc: generate_go_docstring (all four)"]}
{"id": "C99", "title": "Generated clients and processors work together over TJSONProtocol", "statement": "A client and a processor of a service, both over TJSONProtocol, each with its own transports: every call returns what the handler returned for the arguments of that call, the handler runs once per call and in order, and nothing is left in the transports. Every request is answered by exactly one message with its name and sequence number.", "quantifier": "all services, handlers, argument values, numbers and orders of calls, and ways the messages are cut into pieces", "why_tests_cant": "tests run each protocol with single values in one buffer, never a connection with many calls", "anchors": ["compiler/cpp/src/generate/t_go_generator.cc: generate_service_client, generate_service_server", "lib/go/src/thrift/tjson_protocol.go", "lib/go/src/thrift/tprotocol.go"]}
{"id": "C100", "title": "Containers leave out exactly the data their type refuses", "statement": "TType.CoerceData refuses exactly the data that cannot be a value of the type. A datum the element, key or value type refuses changes no list, set or map and is found in none; nil is found exactly where it is an element.", "quantifier": "all types, data, lists, sets and maps", "why_tests_cant": "tests put in values of the element type only", "anchors": ["lib/go/src/thrift/ttype.go: CoerceData", "lib/go/src/thrift/tlist.go: Push, Set, Contains, indexOf", "lib/go/src/thrift/tset.go: Add, Remove, Contains, find", "lib/go/src/thrift/tmap.go: Set, Get, Contains"]}
{"id": "C101", "title": "Loops over the channel iterators see every element once and leave no goroutine behind", "statement": "A loop over Iter, KeyIter or ValueIter of a container sees the elements in order, each once, under every interleaving of the goroutine that sends them; the loop ends, and so does the goroutine.", "quantifier": "all containers, loop bodies and interleavings", "why_tests_cant": "a test sees one interleaving, and a goroutine that waits for ever is not noticed", "anchors": ["lib/go/src/thrift/tlist.go: Iter, iterate", "lib/go/src/thrift/tmap.go: Iter, KeyIter, ValueIter, iterate*, Keys, Values", "lib/go/src/thrift/tfield.go: Iter", "compiler/cpp/src/generate/t_go_generator.cc: generate_serialize_container"]}
{"id": "C102", "title": "The tutorial's calculator answers every request as it should", "statement": "Whatever requests the generated client makes of the tutorial's server (ping, add, calculate, getStruct, in any number and order), each is answered with the int32 of the exact result, with InvalidOperation for a division by zero or an operation that is none, and with the latest entry calculated under a key or nil if there is none; the log afterwards holds what was calculated.", "quantifier": "all sequences of requests, all arguments of the Go types, all logs the server may have, all ways the bytes are cut, all depths", "why_tests_cant": "Sequences of calls, arguments, logs and cuts are unbounded; tests only sample a few.", "anchors": ["tutorial/go/src/CalculatorHandler.go:30-100", "tutorial/go/src/GoClient.go:30-72", "compiler/cpp/src/generate/t_go_generator.cc:1626-1781", "compiler/cpp/src/generate/t_go_generator.cc:2303-2393"]}
{"id": "C103", "title": "A server answers the requests of a connection in order, up to the first that fails", "statement": "Whatever transport and protocol factories a TSimpleServer is made with (plain or framed, binary or compact, input and output chosen independently), the requests a client sends over one connection are answered in the order they were sent, each once, under its name and sequence id, and with what the handler returned for it in the state the earlier requests left; the first request whose handler fails or whose method is unknown is answered with an EXCEPTION and ends the connection, and those after it are not answered; Stop does not end a connection that is being served.", "quantifier": "all services, handlers, lists of requests, arguments, combinations of factories, ways the bytes are cut into frames and Reads, and moments at which Stop is called", "why_tests_cant": "Services, request lists, factories, cuts and moments of Stop are unbounded in number; tests run one service over one pair of factories.", "anchors": ["lib/go/src/thrift/tsimple_server.go:26-161", "lib/go/src/thrift/tframed_transport.go:27-131", "lib/go/src/thrift/tbinary_protocol.go:24-60", "lib/go/src/thrift/tcompact_protocol.go:56-75", "compiler/cpp/src/generate/t_go_generator.cc:2303-2393"]}
{"id": "C104", "title": "Serving a connection ends, and only answers are sent on it, whatever the client sends", "statement": "Whatever bytes arrive, cut anywhere and with any Read errors or empty Reads among them, a server on plain input runs the processor at most once for each byte and each Read and once more; and what it writes is a sequence of complete answers to messages it read, of which all but the last are REPLY messages and an EXCEPTION is always the last.", "quantifier": "all byte streams, Read results, services, handlers and factories", "why_tests_cant": "Byte streams and sequences of Read results are unbounded; tests send a few well-formed requests.", "anchors": ["lib/go/src/thrift/tsimple_server.go:137-161", "lib/go/src/thrift/tbinary_protocol.go:240-300", "lib/go/src/thrift/tcompact_protocol.go:330-380", "compiler/cpp/src/generate/t_go_generator.cc:2303-2393"]}
{"id": "C105", "title": "The connections of a server share nothing but the handler", "statement": "Whatever clients a server has and in whatever order their connections make progress, each client is sent only the answers to its own requests, in order and under its own names and sequence ids, until its requests end or one fails; a client that gets enough turns is done with whatever the others do; a TSimpleServer serves each client to the end before the next, the handler's state going from each to the next; and with a handler that keeps no state, a client is sent exactly what it would be sent if it were alone, whatever it and the others send.", "quantifier": "all services, handlers, numbers of clients, requests, byte streams, interleavings, factories and moments at which Stop is called", "why_tests_cant": "Clients and the interleavings of their connections are unbounded in number; tests serve one client at a time.", "anchors": ["lib/go/src/thrift/tnonblocking_server.go:123-175", "lib/go/src/thrift/tsimple_server.go:113-161", "lib/go/src/thrift/tprocessor_factory.go:24-40", "compiler/cpp/src/generate/t_go_generator.cc:2225-2393"]}
{"id": "C106", "title": "A typedef behaves as the type it stands for", "statement": "Generated code for a type that uses typedefs reads and writes, over any protocol, exactly what the code for the same type with the typedefs replaced by what they stand for does, unless a container has elements, keys or values of a typedef of a base type or an enum, or a required member of a typedef of an enum was never set. (Refuted in those cases: such a list, set or map is read as empty without an error, and the set then claims elements it does not write; a list such elements were pushed to panics when it is written; the member that was never set is written as 2147483647, where the enum itself would be left out.)", "quantifier": "all types, values, byte streams and protocols (the refutations of reading: the binary protocol)", "why_tests_cant": "Typedefs can stand for any type at any depth of a schema; the tests have no typedefs.", "anchors": ["compiler/cpp/src/generate/t_go_generator.cc:570-582", "compiler/cpp/src/generate/t_go_generator.cc:1335-1385", "compiler/cpp/src/generate/t_go_generator.cc:2452-2560", "compiler/cpp/src/generate/t_go_generator.cc:2754-2990", "compiler/cpp/src/generate/t_go_generator.cc:3257-3317", "lib/go/src/thrift/ttype.go:556-1180"]}
{"id": "C107", "title": "A comparison answers less, equal, greater or not at all", "statement": "Comparing any two values under any type, and the CompareTo of fields, field containers and generated structs, gives -1, 0 or 1, or reports that the values cannot be compared and then gives 0; comparing the values the other way round gives the opposite answer, for all values (also of different types) in which nothing is compared as a NaN and no list or set holds maps or structs. (Refuted for NaN and for structs of one name with different fields: each comes after the other.)", "quantifier": "all type ids and all values", "why_tests_cant": "The values are nested without bound, and any two of any types can be compared.", "anchors": ["lib/go/src/thrift/ttype.go:260-505", "lib/go/src/thrift/tfield.go:82-96", "lib/go/src/thrift/tfield.go:253-272", "compiler/cpp/src/generate/t_go_generator.cc:987-998"]}
{"id": "C108", "title": "A transport factory wraps the transport it is given", "statement": "GetTransport of a transport factory returns a transport that reads from where the given one reads and writes to where it writes. This holds of NewTTransportFactory, of framed factories over ones for which it holds, and of TIOStreamTransportFactory given a TIOStreamTransport, whose buffers are handed on as they are. (Refuted for every other factory: TMemoryBuffer, THttpClient and socket factories share nothing with the transport they are given, so a server with one for its input handles no request; and wrapping a closed read-write TIOStreamTransport panics.)", "quantifier": "all factories, nested without bound, all transports and all clients", "why_tests_cant": "Tests use factories alone or with transports of their own kind; the property is about every combination, nested without bound, and every client.", "anchors": ["lib/go/src/thrift/ttransport_factory.go:24-47", "lib/go/src/thrift/tframed_transport.go:33-49", "lib/go/src/thrift/tiostream_transport.go:46-131", "lib/go/src/thrift/tmemory_buffer.go:36-61", "lib/go/src/thrift/thttp_client.go:37-89", "lib/go/src/thrift/tnonblocking_socket.go:39-72", "lib/go/src/thrift/tserver_socket.go:47-84", "lib/go/src/thrift/tnonblocking_server_socket.go:38-71"]}
{"id": "C109", "title": "A socket waits for the network as long as its timeout says", "statement": "Whatever calls came before, every Read of a TSocket or TNonblockingSocket, every Write of a TNonblockingSocket and every Open of a TSocket is under a deadline of its own start plus the timeout set last, and under none if that is not positive; a TSocket's Flush writes under the deadline of the last Write to the connection, which is the same only if no time has passed and no timeout was set in between. (Refuted: a Flush later than the timeout after its Write finds its deadline passed; Open of a TNonblockingSocket is under no deadline.)", "quantifier": "all histories of calls with all times, timeouts and answers of the network", "why_tests_cant": "Histories and times are unbounded, and the tests set no timeouts.", "anchors": ["lib/go/src/thrift/tsocket.go:54-225", "lib/go/src/thrift/tnonblocking_socket.go:59-202"]}
{"id": "C110", "title": "Truncated JSON input is always reported", "statement": "TJSONProtocol, given any strict prefix of the text it wrote for a string, list, set, map or struct, ends the reading of that value with an error; and given any strict prefix of a message it wrote, ReadMessageBegin, the reading of the value or ReadMessageEnd fails, whatever the value is. A scalar on its own is refused or read from what is there, with no input left. (Refuted for scalars on their own: every non-empty prefix of an integer is read as the digits that are left, and no text at all is read as false.)", "quantifier": "all values, messages, cuts of their text and chunkings of the prefix of the kinds that C59 covers", "why_tests_cant": "There are as many cuts as bytes for each of unboundedly many values; the tests read whole documents only.", "anchors": ["lib/go/src/thrift/tjson_protocol.go:203-420", "lib/go/src/thrift/tsimple_json_protocol.go:730-1276"]}
{"id": "C111", "title": "The comparison functions for single types put values in order", "statement": "CompareInt, CompareByte, CompareBool, CompareString, CompareFloat and CompareDouble answer -1, 0 or 1 as the first value comes before, at or after the second in the order of its type (IEEE 754 for floating point numbers, bytewise alphabetical for strings), and CompareStringArray puts fewer strings first and as many strings in alphabetical order, a total order with 0 exactly for the same strings. (Refuted for NaN, which is called equal to every number, and for CompareInt64, whose parameters are int32.)", "quantifier": "all integers, booleans, byte strings, lists of byte strings and floating point numbers", "why_tests_cant": "Arrays of strings are unboundedly many, and transitivity speaks of all triples; the library has no tests of these functions.", "anchors": ["lib/go/src/thrift/tcompare.go:22-126"]}
{"id": "C112", "title": "The tutorial's program does what its command line says, and reports it when it cannot", "statement": "The tutorial's program, asked to be the client (or the server) with a protocol it names and with or without frames, makes the client's calls (or serves) over exactly that transport and protocol, and nothing else makes it do so; a client and a server told the same have the dialogue of the tutorial, whatever the server logged before and however the bytes arrive. When it cannot do what it was asked, it ends with a status other than 0. (Refuted: it never ends with another status than 0, a server that cannot go on waits for ever, and --http changes nothing. The dialogue is proved for the binary and compact protocols, and without frames for the JSON protocols.)", "quantifier": "all command lines (flag values), all outcomes of the network's operations, all server logs, all ways the bytes are cut", "why_tests_cant": "The program has no tests; the claims speak of every combination of flags and of failures of the network that a test cannot cause at will, and of a process that never ends.", "anchors": ["tutorial/go/src/main.go:29-84", "tutorial/go/src/GoServer.go:40-81", "tutorial/go/src/GoClient.go:74-89"]}
{"id": "C113", "title": "Generated clients and processors over TSimpleJSONProtocol", "statement": "A client and a processor of a service, both over TSimpleJSONProtocol, each with its own transports: every call returns what the handler returned for the arguments of that call or the error the handler failed with, the handler runs once per call and in order, nothing is left in the transports, and every request, one for an unknown method too, is answered by exactly one message with its name and sequence number and read to its end. (Proved for handlers that return results and declared exceptions; refuted for handlers that fail: their callers get INVALID_DATA, and so do the calls after; a request for an unknown method is answered but not read to its end.)", "quantifier": "all services, handlers, argument values, numbers and orders of calls, and ways the messages are cut into pieces", "why_tests_cant": "Tests write and read single values in one buffer; none has a client and a processor over this protocol, nor an exception in it.", "anchors": ["compiler/cpp/src/generate/t_go_generator.cc: generate_service_client, generate_service_server", "lib/go/src/thrift/tsimple_json_protocol.go:171-211", "lib/go/src/thrift/tsimple_json_protocol.go:305-380", "lib/go/src/thrift/tapplication_exception.go"]}
{"id": "C114", "title": "A service that returns its argument", "statement": "For a method that takes one value and returns it (the Echo of the golden test service, or any method of that shape), a handler that returns its argument, and calls one after the other from a client to a processor: every call returns the value it was given, nil for nil; for the golden ContainerOfEnums each of its nine members comes back with its number, or unset. (Proved over TBinaryProtocol, TCompactProtocol, frames, TJSONProtocol and TSimpleJSONProtocol, for types without sets and maps and numbers of an int32; refuted for members with a default that are unset, for numbers wider than an int32, and for sets.)", "quantifier": "all argument values, numbers and orders of calls, ways the messages are cut into pieces, for the golden service and for every method of this shape", "why_tests_cant": "The tests compare the generated text of this service with a golden file; no test runs it, and a test could try few of the numbers and protocols.", "anchors": ["tests/generation/simple.thrift:1-36", "tests/generation/golden/gen-go/simple/ttypes.go:160-640", "tests/generation/golden/gen-go/simple/ContainerOfEnumsTestService.go:23-558"]}
{"id": "C115", "title": "The comparison of maps", "statement": "Comparing two TMaps (keys and values scalars, lists or sets, nested to any depth) orders them by key type, value type, number of entries, keys and values, a total order, and Equals and Less agree with it; maps are called equal exactly if they have the same entries. (The last part is proved for maps with at most one entry and for keys kept in a list; refuted for Go maps: keys and values are iterated over separately, so equal maps may be called unequal and unequal maps equal; maps with map keys panic.)", "quantifier": "all maps of these types, all iteration orders of Go maps", "why_tests_cant": "The outcome depends on the random iteration order of Go maps; no test compares two maps.", "anchors": ["lib/go/src/thrift/ttype.go:423-443", "lib/go/src/thrift/ttype.go:491-505", "lib/go/src/thrift/tmap.go:736-771", "lib/go/src/thrift/tmap.go:101-126"]}
{"id": "C116", "title": "A request is answered without reading on", "statement": "On a connection that stays open Process reads a request's own bytes and no more: when the reply is written no Read has been made for what comes after the request, and a client has its result when the reply is there. (Proved for TBinaryProtocol and TCompactProtocol; refuted for TJSONProtocol: the last empty struct of a message is looked at with Peek(4), so a call without arguments, like ping of the tutorial, and a reply to a function without a result wait for the next bytes or a timeout.)", "quantifier": "all services, requests and replies of the modelled types, all ways the bytes come in pieces, whatever follows them", "why_tests_cant": "The tests read from memory buffers that report their end at once; that a Read would block is not seen.", "anchors": ["lib/go/src/thrift/tsimple_json_protocol.go:947-960", "lib/go/src/thrift/tsimple_server.go:137-161", "lib/go/src/thrift/tbinary_protocol.go:456-492", "lib/go/src/thrift/tcompact_protocol.go:734-760"]}
{"id": "C117", "title": "A server over TJSONProtocol", "statement": "A TSimpleServer with TJSONProtocol on both sides answers the requests of a connection in order, each with the message its handler's result demands, up to and including the first that fails; and it ends when the requests end. (Proved for requests TJSONProtocol keeps that come in pieces it can read, in particular each in a Read of its own, of any number; refuted for other pieces: a request whose second piece begins with a comma or colon is dropped or answered with an exception.)", "quantifier": "all services, handlers, numbers of requests, contents within what TJSONProtocol keeps, pieces without a cut at a separator", "why_tests_cant": "No test runs a server; how TCP cuts a request is outside a test's control.", "anchors": ["lib/go/src/thrift/tsimple_server.go:137-161", "lib/go/src/thrift/tjson_protocol.go:204-261", "lib/go/src/thrift/tsimple_json_protocol.go:733-831", "compiler/cpp/src/generate/t_go_generator.cc:2242-2256"]}
{"id": "C118", "title": "The work done for a message is bounded by its length", "statement": "However a message is formed, Skip, the generated readers and Process call Read on the transport no more often than they take bytes from it, and the buffers made for a message are not larger than the message. (Proved for Reads as long as something of the input is left unread; refuted at its end: Skip drops the errors of elements, so a list header of five bytes at the end of an input makes as many Reads as it says, up to 2^31 - 1, and no error is reported; any service does this for an unknown method; a length of four bytes makes a buffer of that length before any of its bytes has come.)", "quantifier": "all inputs, pieces, types, services, declared sizes", "why_tests_cant": "Hostile headers are not in the tests; the amount of work is not observed by them.", "anchors": ["lib/go/src/thrift/tprotocol.go:120-200", "lib/go/src/thrift/ttransport.go:160-174", "lib/go/src/thrift/tbinary_protocol.go:338-356", "lib/go/src/thrift/tbinary_protocol.go:480-492", "compiler/cpp/src/generate/t_go_generator.cc:2242-2256"]}
{"id": "C119", "title": "No input makes a reader, a processor or a server panic", "statement": "Whatever bytes arrive, in whatever pieces and with whatever errors, the generated readers, Process and a server's connection return (a value or an error) instead of panicking. (Proved over TBinaryProtocol, plain or framed, exactly for types without containers and binary, down to the members of structs, and for services whose arguments are of such types, among them the tutorial's Calculator. For any other type or service an input is given on which it panics: a container whose header names an unknown element type, a binary of negative length. Over TCompactProtocol eight bytes make every service panic, even one without functions. Over TJSONProtocol types without containers are safe unless the transport reports an error together with data, which makes every service panic.)", "quantifier": "all inputs, pieces, errors, types, services, handlers, stop times", "why_tests_cant": "No test sends malformed requests; a panic needs a specific byte in a header.", "anchors": ["lib/go/src/thrift/tbinary_protocol.go:429-442", "lib/go/src/thrift/tcompact_protocol.go:595-607", "lib/go/src/thrift/ttype.go:1094", "compiler/cpp/src/generate/t_go_generator.cc:1144-1240", "compiler/cpp/src/generate/t_go_generator.cc:2235-2393", "lib/go/src/thrift/tsimple_server.go:137-161", "lib/go/src/thrift/tjson_protocol.go:312-348"]}
{"id": "C120", "title": "Whatever arrives, Process answers it and the connection comes to an end", "statement": "For a service whose arguments contain no containers (over TBinaryProtocol: nor binary), Process returns on every input, well-formed or not, in whatever pieces and with whatever errors: if a message header can be read exactly one answer is written, to that name and sequence id, and otherwise nothing. The loop of a server ends on every finite input, after at most one round per byte, and what it has sent is a sequence of whole answers. (Over TJSONProtocol for input in which no error comes together with data.) Over TCompactProtocol, which panics on a negative length, this holds of input in which no varint is longer than four bytes, for services without binary in their results.", "quantifier": "all inputs, pieces, errors, services without containers in arguments, handlers, stop times", "why_tests_cant": "Termination and the absence of panics on every malformed input; no test sends one.", "anchors": ["compiler/cpp/src/generate/t_go_generator.cc:2235-2393", "lib/go/src/thrift/tsimple_server.go:137-161", "lib/go/src/thrift/tprotocol.go:125-242", "lib/go/src/thrift/tjson_protocol.go:100-140"]}
{"id": "C121", "title": "Whatever arrives over TFramedTransport is read as the plain input of its frames", "statement": "For every input (any bytes, pieces and errors), the generated readers, a client's RecvX and a server over TBinaryProtocol or TCompactProtocol over TFramedTransport give exactly what they give over a plain transport whose Reads are the frames' payloads, with an error for every frame that is empty, cut off, of a length that is not positive as an int, or met by an error. In particular a request may span frames and a frame may hold several; an empty frame ends a connection.", "quantifier": "all inputs, pieces, errors, services, handlers, output transports, widths of int", "why_tests_cant": "An equivalence for all inputs, including broken frames and errors in the middle of one.", "anchors": ["lib/go/src/thrift/tframed_transport.go:67-131", "lib/go/src/thrift/ttransport.go:160-174", "lib/go/src/thrift/tbinary_protocol.go:378-492", "lib/go/src/thrift/tsimple_server.go:137-161", "lib/go/src/thrift/tcompact_protocol.go:352-607"]}
{"id": "C122", "title": "Comparing, filling containers, reading, serving and calling end or panic, for every type", "statement": "TType.Compare returns or panics on all values, its recursion going no deeper than their levels of containers; so do the operations of TList, TSet and TMap that compare. The readers generated for any type (containers, binary and structs included) return or panic on every input, the writers on every value and whatever the transport answers, and so do Process and a server's connection for any service and handler, and SendX and RecvX of a client for any function, arguments and answer: none of them loops for ever.", "quantifier": "all values, types, services, handlers, inputs, pieces, errors; TBinaryProtocol and TCompactProtocol, plain or framed, TJSONProtocol", "why_tests_cant": "Termination over all inputs and types.", "anchors": ["lib/go/src/thrift/ttype.go:255-505", "lib/go/src/thrift/tset.go:76-210", "lib/go/src/thrift/tmap.go:128-440", "lib/go/src/thrift/tlist.go:85-233", "compiler/cpp/src/generate/t_go_generator.cc:2450-2772", "lib/go/src/thrift/tsimple_server.go:137-161", "lib/go/src/thrift/tcompact_protocol.go:127-343", "compiler/cpp/src/generate/t_go_generator.cc:1669-1781"]}
{"id": "C123", "title": "A client survives every answer exactly when nothing its function returns holds a container or binary", "statement": "RecvX of a function whose result and exceptions hold no container and no binary returns (never panics, never loops) over TBinaryProtocol, plain or framed, whatever the server sends; over TJSONProtocol also with binary. For any other function some reply makes RecvX panic over TBinaryProtocol, and over TCompactProtocol eight bytes make every RecvX panic.", "quantifier": "all functions, sequence numbers, received bytes, pieces, transport errors, settings", "why_tests_cant": "No panic and no loop over all inputs and functions.", "anchors": ["compiler/cpp/src/generate/t_go_generator.cc:1739-1781", "lib/go/src/thrift/tapplication_exception.go:73-126", "lib/go/src/thrift/tbinary_protocol.go", "lib/go/src/thrift/tcompact_protocol.go"]}
