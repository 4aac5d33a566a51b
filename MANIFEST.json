{"claims": [
  {"property": "C01", "status": "proved", "theorems": ["C01_binary_scalar_round_trip"], "note": ""},
  {"property": "C02", "status": "proved", "theorems": ["C02_binary_wire_layout", "C02_binary_type_announced_as_string"], "note": ""},
  {"property": "C03", "status": "proved", "theorems": ["C03_binary_message_round_trip"], "note": ""},
  {"property": "C04", "status": "proved", "theorems": ["C04_strict_reader_rejects"], "note": ""},
  {"property": "C05", "status": "proved", "theorems": ["C05_binary_value_round_trip"], "note": ""},
  {"property": "C06", "status": "proved", "theorems": ["C06_binary_chunking_irrelevant", "C06_compact_chunking_irrelevant"], "note": "Binary and compact: every program of read calls, including Skip."},
  {"property": "C07", "status": "proved", "theorems": ["C07_truncated_binary_reported"], "note": ""},
  {"property": "C08", "status": "proved", "theorems": ["C08_skip_binary_exact"], "note": ""},
  {"property": "C09", "status": "partial", "theorems": ["C09_skip_reports_truncation_refuted", "C09_skip_reports_truncation_partial", "C09_skip_struct_never_reports", "C09_skip_list_reports_header_only", "C09_exact"], "note": "Refuted: Skip discards the errors of list, set, map elements and of struct fields. C09_exact says for every value and every cut point when an error is reported: all of a scalar or string, only the header of a list, set or map, nothing of a struct."},
  {"property": "C10", "status": "partial", "theorems": ["C10_skip_depth_limit_refuted", "C10_skip_depth_ignored"], "note": "Refuted: the depth argument is never compared with anything."},
  {"property": "C11", "status": "partial", "theorems": ["C11_binary_malformed_length_refuted", "C11_binary_negative_size_refuted", "C11_binary_reads_total_partial", "C11_read_binary_partial"], "note": "Refuted: ReadBinary panics on a negative length; ReadString and the container readers return a negative size without error. All other reads return on every transport."},
  {"property": "C12", "status": "proved", "theorems": ["C12_skip_binary_terminates"], "note": ""},
  {"property": "C13", "status": "proved", "theorems": ["C13_zigzag_bijection"], "note": ""},
  {"property": "C14", "status": "proved", "theorems": ["C14_varint_round_trip"], "note": ""},
  {"property": "C15", "status": "proved", "theorems": ["C15_compact_scalar_round_trip"], "note": ""},
  {"property": "C16", "status": "proved", "theorems": ["C16_compact_wire_layout"], "note": ""},
  {"property": "C17", "status": "proved", "theorems": ["C17_field_headers_round_trip"], "note": ""},
  {"property": "C18", "status": "partial", "theorems": ["C18_bool_field_refuted", "C18_bool_field_partial", "C18_false_field_always_fails"], "note": "Refuted: false fields cannot be read back, for any id (proved universally); true fields round trip."},
  {"property": "C19", "status": "partial", "theorems": ["C19_nested_ids_refuted", "C19_nested_ids_partial", "C19_exact"], "note": "Refuted for three levels of structs; proved for two levels, and C19_exact says exactly for which values the ids come back (ids_kept)."},
  {"property": "C20", "status": "partial", "theorems": ["C20_oneway_refuted", "C20_message_round_trip_partial", "C20_foreign_message_refused"], "note": "Refuted for ONEWAY (read back as 0); proved for the other message types."},
  {"property": "C21", "status": "partial", "theorems": ["C21_truncated_string_refuted", "C21_truncation_reported_partial", "C21_truncated_body_never_reported", "C21_exact", "C21_structs"], "note": "Refuted: truncation in a string body is never reported by the read itself. C21_exact: the encoding of any value, containers and structs included, is refused exactly if more bytes are missing than belong to a string that ends it; C21_structs: a struct is refused wherever it is cut."},
  {"property": "C22", "status": "partial", "theorems": ["C22_compact_malformed_length_refuted", "C22_compact_reads_total_partial", "C22_read_binary_partial", "C22_struct_end_partial"], "note": "Refuted: a negative length panics in ReadBinary/ReadString; proved otherwise."},
  {"property": "C23", "status": "partial", "theorems": ["C23_empty_map_refuted", "C23_container_headers_partial"], "note": "Refuted for empty maps (types are not on the wire); proved for lists, sets and non-empty maps."},
  {"property": "C24", "status": "partial", "theorems": ["C24_compact_value_refuted", "C24_compact_value_partial", "C24_read_back", "C24_false_field", "C24_exact"], "note": "Refuted (C18, C19); proved for values without false fields and with struct nesting as in C19, up to the types of empty maps. C24_read_back gives the value read for every value without false fields, C24_false_field the error for all others, C24_exact the values that survive."},
  {"property": "C25", "status": "partial", "theorems": ["C25_skip_compact_refuted", "C25_skip_compact_partial", "C25_numbering_refuted", "C25_skip_exact", "C25_false_field"], "note": "Refuted (false fields; numbering after nested structs); C25_skip_exact: the position is exact for every value without false fields, and the numbering left is given; C25_false_field: where a skip stops in a struct with a false field."},
  {"property": "C26", "status": "partial", "theorems": ["C26_read_all_refuted", "C26_read_all_partial", "C26_read_all_complete"], "note": "Refuted for transports returning (0, nil); proved for all others."},
  {"property": "C27", "status": "partial", "theorems": ["C27_empty_flush_refuted", "C27_empty_read_refuted", "C27_data_with_eof_refuted", "C27_framed_stream_partial", "C27_pieces"], "note": "Refuted: an empty Flush gives a spurious end of file, an empty Read drops the rest of a frame, data returned together with io.EOF is lost. Proved for non-empty flushes below 2^31 bytes, non-empty reads and all chunkings. C27_pieces: reading over frames gives what reading over a transport with one piece per frame gives, so results about messages in one piece hold for messages in one frame."},
  {"property": "C28", "status": "proved", "theorems": ["C28_framing", "C28_framing_with_failures"], "note": "Every history; Flush success under every schedule of write failures."},
  {"property": "C29", "status": "partial", "theorems": ["C29_broken_frame_refuted", "C29_broken_frame_partial", "C29_negative_size_32bit"], "note": "Refuted for a (0, nil) read inside a frame; proved for streams cut anywhere, all chunkings, and for negative sizes on 32-bit int."},
  {"property": "C30", "status": "proved", "theorems": ["C30_memory_buffer_fifo", "C30_bytes_in_order_once"], "note": "Every history of calls against a queue specification; ReadFrom takes everything up to the first error."},
  {"property": "C31", "status": "partial", "theorems": ["C31_empty_write_refuted", "C31_write_after_close_refuted", "C31_no_panic_partial", "C31_nothing_after_close_partial", "C31_closed_calls_fail_partial", "C31_flush_delivers"], "note": "Refuted: an empty Write panics; a closable ReadWriter still receives bytes after Close. Proved otherwise; also that Flush delivers exactly the written bytes (bufio.Writer modelled)."},
  {"property": "C32", "status": "partial", "theorems": ["C32_bytes_survive_close_refuted", "C32_isolation_partial", "C32_nonblocking_isolation", "C32_answers"], "note": "Refuted: unflushed bytes survive Close and go to the next connection. Proved when every Close follows a Flush; proved without condition for TNonblockingSocket. Also what every call answers on a closed or open socket."},
  {"property": "C33", "status": "partial", "theorems": ["C33_post_error_refuted", "C33_close_refuted", "C33_get_client_panics_refuted", "C33_posts_partial", "C33_read_needs_response", "C33_flush_result", "C33_close_partial"], "note": "Refuted: a failing post leaves its bytes for the next one; Close after a response leaves the client open; a GET client panics on Write. Proved otherwise; Flush succeeds exactly for an answer 200."},
  {"property": "C34", "status": "partial", "theorems": ["C34_accept_refuted", "C34_listen_twice_refuted", "C34_nonblocking_accept_partial", "C34_idempotent_partial", "C34_accept_result", "C34_from_connection"], "note": "Refuted: TServerSocket.Accept listens by itself, also after Interrupt; a second Listen of TNonblockingServerSocket is an error. Proved: TNonblockingServerSocket accepts only while listening; idempotence of the rest. Accept gives a connection exactly when it reports no error, that is, when there is (or can be made) a listener and it gives one."},
  {"property": "C35", "status": "partial", "theorems": ["C35_closed_exactly_once", "C35_stop_refuted", "C35_stop_before_serve_refuted", "C35_stop_partial", "C35_stop_nonblocking_socket_partial", "C35_simple_one_at_a_time", "C35_listen_first", "C35_serve_again", "C35_panic_is_fatal"], "note": "Closing exactly once per transport handle proved for all interleavings (with the default factory both handles are the same object). Refuted: a connection can be accepted after Stop with TServerSocket, and Stop before Serve is lost. Proved: at most one more; none with TNonblockingServerSocket. Nothing is taken on before a successful Listen; a panic in Process takes the server down. C35_serve_again: after an error of Accept, Serve can be called again with TServerSocket; with TNonblockingServerSocket it fails (\"already open\") and takes on nothing until an Interrupt."},
  {"property": "C36", "status": "partial", "theorems": ["C36_total_order_partial", "C36_nan_refuted"], "note": "Refuted for NaN; proved for all other values of every scalar type."},
  {"property": "C37", "status": "partial", "theorems": ["C37_every_history", "C37_set_partial", "C37_new_minimum_lost", "C37_minimum_refuted", "C37_len_refuted"], "note": "Refuted: an element below all others is dropped (proved universally), and an empty set reports its size hint as Len. C37_set_partial: histories without such additions. C37_every_history: the exact contents after every history, for scalar elements and lists and sets of any depth; struct and map elements are not covered."},
  {"property": "C38", "status": "proved", "theorems": ["C38_sequence", "C38_scalars_accepted", "C38_out_of_range", "C38_contains"], "note": "Every history within the index contract, and the behaviour outside it; data are those the element type accepts. Contains finds exactly the values equal to an element."},
  {"property": "C39", "status": "partial", "theorems": ["C39_container_keys", "C39_finite_map_partial", "C39_bool_refuted", "C39_map_keys_refuted"], "note": "Refuted: Get of an absent BOOL key says found; Keys panics for MAP keys. Proved for all scalar key types otherwise, and by C39_container_keys for keys that are lists or sets of any depth; struct keys are modelled but not covered."},
  {"property": "C40", "status": "partial", "theorems": ["C40_lookups_partial", "C40_position_refuted", "C40_empty_name_refuted", "C40_contains"], "note": "Refuted: At takes an id; empty names are not indexed. Lookups by id and non-empty name proved."},
  {"property": "C41", "status": "partial", "theorems": ["C41_field_partial", "C41_container_symmetric_partial", "C41_container_order", "C41_name_refuted", "C41_nil_refuted", "C41_container_refuted", "C41_field_kinds"], "note": "Refuted: names are ignored by Equals, nil receivers, duplicate fields. The agreements that do hold are proved, and that containers are ordered by length and compare as 0 exactly if they hold the same fields."},
  {"property": "C42", "status": "partial", "theorems": ["C42_classification_refuted", "C42_classification_partial"], "note": "Refuted: END_OF_FILE of the transport becomes BAD_VERSION when wrapped by the struct readers. The other clauses hold."},
  {"property": "C43", "status": "partial", "theorems": ["C43_binary", "C43_compact_partial", "C43_compact_false_refuted", "C43_compact_nested_refuted"], "note": "Binary: every exception, message and type id. Compact: proved outside nesting; refuted when an unknown extra field is a struct with false booleans or deep nesting (C18, C19 defects)."},
  {"property": "C44", "status": "partial", "theorems": ["C44_failed_text_partial", "C44_unknown_text", "C44_binary_partial", "C44_compact_partial", "C44_valid_request_partial", "C44_unknown_method", "C44_malformed_refuted"], "note": "Valid requests (binary and compact) and unknown methods: exactly one reply with the request name and sequence id. Refuted for malformed arguments: an unknown list element type panics the processor. The bytes of the exceptions for a failing handler and an unknown method are spelled out (PropExcText.v), texts and codes included."},
  {"property": "C45", "status": "partial", "theorems": ["C45_sequence", "C45_zeros", "C45_only_matching", "C45_binary_partial", "C45_type_refuted", "C45_empty_refuted"], "note": "Refuted: the client never tests the message type or the method name, and an empty reply counts as a success. Sequence id test and handling of EXCEPTION replies proved. C45_sequence gives, over every protocol, the whole answer of RecvX to another number: code 4 and a text that says \"ping\" for every function. With an application exception, or a header that cannot be read, the caller gets the zero values of the results, an enum its 0 (C45_zeros)."},
  {"property": "C46", "status": "partial", "theorems": ["C46_given_refuted", "C46_factory_partial"], "note": "Refuted: NewXClientProtocol has an inverted nil test, given protocols are replaced by nil and calls panic. Clients made from a factory proved."},
  {"property": "C47", "status": "partial", "theorems": ["C47_binary_states_partial", "C47_binary_partial", "C47_compact_states_partial", "C47_compact_partial", "C47_oneway_refuted", "C47_compact_false_refuted"], "note": "Any number of calls over one pair, any chunking, binary and compact, for values the protocols carry (C18/C50 defects). Refuted for oneway calls (the client reads the unwanted reply at the next call) and false bools over compact. C47_*_states_partial ask the handler only about the calls made and keep an invariant of its state."},
  {"property": "C48", "status": "partial", "theorems": ["C48_binary_round_trip_partial", "C48_compact_round_trip_partial", "C48_members", "C48_set_refuted", "C48_list_enum_refuted", "C48_empty_optional_refuted", "C48_unset_refuted", "C48_negative_zero_refuted", "C48_compact_binary_refuted"], "note": "Round trip proved for the binary and compact protocols for all schemas with non-negative ids and all values meeting `kept`; refuted for sets of two or more, lists of enums, empty optional containers, unset members with defaults, -0.0, and binary members with compact."},
  {"property": "C49", "status": "partial", "theorems": ["C49_binary", "C49_newer_writer", "C49_compact_partial", "C49_compact_ids", "C49_compact_false_refuted"], "note": "Proved for the binary protocol (any extra fields; any newer writer); compact for values whose ids are kept (C19), C49_compact_ids without that condition (the members the reader then sees); refuted for false members."},
  {"property": "C50", "status": "partial", "theorems": ["C50_unexpected_type_refuted"], "note": "Refuted: the reader only tells VOID from the declared type."},
  {"property": "C51", "status": "partial", "theorems": ["C51_dispatch_partial", "C51_negative_id_refuted"], "note": "Proved for ids >= 0 with the binary protocol; refuted for negative ids (whose generated method names are not valid Go either)."},
  {"property": "C52", "status": "proved", "theorems": ["C52_enum_strings", "C52_value"], "note": "All enums with distinct constant names; values as the generator numbers them. Undeclared values print as <UNSET>-style markers as in the emitted code. C52_value: Value() gives the number exactly if it fits into an int."},
  {"property": "C53", "status": "partial", "theorems": ["C53_no_keyword", "C53_valid", "C53_exported_partial", "C53_exported_refuted", "C53_distinct_partial", "C53_distinct_camel_partial", "C53_distinct_refuted", "C53_exception_member", "C53_exception_keyword_refuted"], "note": "Keyword freedom and validity proved for member, argument and type names. Refuted: names starting with _ are not exported, distinct IDL names can clash, and a received exception keeps its IDL name, which may be a keyword. Distinctness proved for lower case names and for underscore-free names with the same first-letter case."},
  {"property": "C54", "status": "partial", "theorems": ["C54_type_names_round_trip_partial", "C54_type_names_refuted"], "note": "Refuted for I16 (written \"i16\", read \"16\"); exactly the ids that do round trip are characterised."},
  {"property": "C55", "status": "partial", "theorems": ["C55_string_round_trip_partial", "C55_string_round_trip_refuted"], "note": "Every UTF-8 string, both protocols, every chunking, context and encoding/json escaping style. Refuted for bytes that are not UTF-8, for every style."},
  {"property": "C56", "status": "proved", "theorems": ["C56_binary_round_trip"], "note": "Every byte slice, both protocols, every chunking, in every context; inside lists and objects the separator in front has to be buffered already (defect of C60)."},
  {"property": "C57", "status": "proved", "theorems": ["C57_integer_round_trip"], "note": "Byte, i16, i32, i64, both protocols, every chunking, as values and as member names; separator in front as in C56."},
  {"property": "C58", "status": "partial", "theorems": ["C58_output_is_json_partial", "C58_output_is_json_refuted"], "note": "Every properly nested call sequence of both protocols, against the RFC 8259 grammar. Refuted for strings that are not UTF-8 with the encoding/json of Go 1.0 (the string vanishes)."},
  {"property": "C59", "status": "partial", "theorems": ["C59_value_round_trip_partial", "C59_one_chunk_round_trip_partial", "C59_message_round_trip_partial", "C59_i16_field_refuted", "C59_long_document_refuted"], "note": "Values and messages, any length, for UTF-8 strings, no I16 members, and chunkings without cut at a separator. Refuted for I16 members, and for long documents arriving in one piece."},
  {"property": "C60", "status": "partial", "theorems": ["C60_chunking_partial", "C60_chunking_refuted"], "note": "Refuted: a cut before a comma changes the result. Proved equal for all cuts elsewhere."},
  {"property": "C61", "status": "proved", "theorems": ["C61_binary_write_errors", "C61_compact_write_errors"], "note": "Binary and compact protocols, every write call."},
  {"property": "C62", "status": "partial", "theorems": ["C62_names", "C62_utf8_refuted", "C62_predicates_partial", "C62_enum_refuted"], "note": "Refuted: ENUM and UTF8 share an id. All other relations proved for every id."},
  {"property": "C63", "status": "partial", "theorems": ["C63_inverted", "C63_double_inverted", "C63_strings_refuted"], "note": "Refuted: the parse error test is inverted; the inversion is proved for all strings."},
  {"property": "C64", "status": "partial", "theorems": ["C64_idempotent_partial", "C64_value_kept", "C64_double", "C64_bool", "C64_numeric", "C64_numeric_refuted"], "note": "Refuted for Numeric values; proved for all others, with what each integer type does to a Numeric, what doubles become and what is false."},
  {"property": "C65", "status": "proved", "theorems": ["C65_compare", "C65_total_order", "C65_equals"], "note": "All lists and sets of scalars nested to any depth; fuel above the depth. Maps and structs inside are not covered."},
  {"property": "C66", "status": "partial", "theorems": ["C66_list_less_partial", "C66_type_less_partial", "C66_type_ids", "C66_type_ids_refuted", "C66_less_refuted"], "note": "Refuted: TList.Less is always true, TType.Less is reversed and int16 type ids count as STOP. What each computes is proved, for type ids given as TType, byte and other integers as well."},
  {"property": "C67", "status": "partial", "theorems": ["C67_returns_partial", "C67_clean_partial", "C67_bool_refuted"], "note": "Refuted: ReadBool panics when an error came with the data that filled the buffer. Proved for all other calls on any transport, and for all calls including Skip when no error comes with data."},
  {"property": "C68", "status": "partial", "theorems": ["C68_simple_json", "C68_json_partial", "C68_json_binary_refuted"], "note": "Proved for TSimpleJSONProtocol and for every TJSONProtocol call but WriteBinary, which ignores all write errors (refuted)."},
  {"property": "C69", "status": "partial", "theorems": ["C69_terminates_partial", "C69_panic_refuted"], "note": "Refuted: a string length that is a negative varint panics. Proved that Skip always ends, and panics only if such a varint occurs in the input."},
  {"property": "C70", "status": "partial", "theorems": ["C70_separator", "C70_field_separator", "C70_start", "C70_number", "C70_string_partial", "C70_base64", "C70_end_partial", "C70_header", "C70_version_partial", "C70_field", "C70_name", "C70_refuted"], "note": "Refuted: bad escapes in a string without an escaped quote, exponents without digits, an empty input for ReadBool and versions beyond 32 bits are accepted. Proved for missing separators, wrong first characters, misplaced characters in numbers, bad base64, bad strings with an escaped quote, bad header and field header parts, field names without quotes, the end of the input and wrong 32-bit versions."},
  {"property": "C71", "status": "partial", "theorems": ["C71_round_trip_partial", "C71_one_chunk_partial", "C71_unknown_partial", "C71_newer_writer_partial", "C71_i16_first", "C71_refuted"], "note": "Partial: types without binary, values without i16 members or map keys/values, valid UTF-8, doubles that format and parse back; the tight cuts of the text C60 reads. C71_i16_first: a struct whose first written member is an i16 is never read back; C71_refuted: binary and i16 members are written but refused by the reader."},
  {"property": "C72", "status": "partial", "theorems": ["C72_binary", "C72_compact", "C72_simple_json", "C72_complete_binary", "C72_complete_compact", "C72_success", "C72_reply_binary", "C72_reply_compact_partial", "C72_send_refuted", "C72_continues_refuted", "C72_kind_refuted"], "note": "Proved for the binary, compact and simple JSON protocols. Refuted: SendX drops the errors of WriteMessageBegin, WriteMessageEnd and Flush; a processor goes on writing after a failed WriteMessageBegin; the number of a transport's error is taken for a protocol's. Missing in C72_reply_compact_partial: methods and texts too long for compact lengths; TJSONProtocol (C68)."},
  {"property": "C73", "status": "partial", "theorems": ["C73_const_partial", "C73_bare", "C73_binary_refuted", "C73_set_refuted", "C73_map_refuted", "C73_typedef_member_refuted", "C73_reserved_member_refuted", "C73_byte_refuted", "C73_double_refuted"], "note": "Proved for the constants `good` describes (Coq: ConstSpec.v). Refuted, each with a witness: binary constants; sets that add a new minimum; maps with integer or enum values and keys other than binary (writing them panics); struct members of a typedef'd base type, with reserved names, or negative bytes; doubles of more than six digits."},
  {"property": "C74", "status": "partial", "theorems": ["C74_constructor_partial", "C74_constructor_is_gnew_partial", "C74_filled_default_does_not_compile", "C74_container_default_refuted", "C74_negative_key_refuted", "C74_declared"], "note": "Proved for defaults of base types and enums and for empty containers or structs, and that the result is the object `gnew` of Gen.v. A default with contents never compiles (proved in general); so does a negative key (witness)."},
  {"property": "C75", "status": "proved", "theorems": ["C75_binary", "C75_compact"], "note": "The protocols of Binary.v and Compact.v are instances of the ones over any transport (Over.v, by reflexivity)."},
  {"property": "C76", "status": "partial", "theorems": ["C76_binary", "C76_compact", "C76_ios_compact", "C76_ios_binary_partial", "C76_ios_empty_binary_refuted"], "note": "Proved for all the transports but TIOStreamTransport under TBinaryProtocol, where it holds unless a panic happens (_partial); the panic is real: writing an empty binary (refuted with a witness)."},
  {"property": "C77", "status": "proved", "theorems": ["C77_sizes_binary_states", "C77_sizes_binary", "C77_sizes_compact_states", "C77_sizes_compact", "C77_processor_binary", "C77_processor_compact", "C77_calls_binary", "C77_calls_compact", "C77_served_binary", "C77_served_compact"], "note": "The hypothesis `fits` speaks of the plain run: its messages are 1 to 2^31-1 bytes long and no SendX fails."},
  {"property": "C78", "status": "proved", "theorems": ["C78_stream", "C78_http", "C78_socket"], "note": "bufio.Reader modelled, including the direct read into large buffers."},
  {"property": "C79", "status": "partial", "theorems": ["C79_written", "C79_read_partial", "C79_round_trip_partial", "C79_unknown_name", "C79_newer_writer", "C79_one_chunk_partial", "C79_json", "C79_skipping_refuted", "C79_cut_refuted"], "note": "Refuted: fields with unknown names are never skipped (proved for every such document), and a document whose first piece ends behind a comma is refused. Round trip for texts of at most 4096 bytes with UTF-8 strings, without binaries in containers, not cut at the positions named."},
  {"property": "C80", "status": "partial", "theorems": ["C80_type", "C80_list", "C80_map", "C80_set_refuted", "C80_other_refuted", "C80_int"], "note": "Refuted: a set without a type stores nil for everything (proved for every value), an int beyond 32 bits and a negative int8 are changed, unsigned integers become nil, slices are lost. Proved for the values the generated code uses."},
  {"property": "C81", "status": "partial", "theorems": ["C81_imports_refuted", "C81_other_imports", "C81_arguments", "C81_same_type", "C81_argument_types_refuted"], "note": "Refuted for every service: math is imported and never used. Which other imports are used and which argument types fit is characterised exactly."},
  {"property": "C82", "status": "partial", "theorems": ["C82_says_partial", "C82_refused", "C82_refused_double", "C82_unreadable", "C82_range_refuted", "C82_i16_refuted", "C82_bool_refuted", "C82_position_refuted"], "note": "Refuted: numbers out of range are cut, i16 arguments are cut to eight bits, every word but true is false, and a container whose number is not its position is dropped. Proved otherwise."},
  {"property": "C83", "status": "partial", "theorems": ["C83_called", "C83_calls", "C83_status", "C83_unknown_refuted", "C83_count_refuted", "C83_protocol_refuted", "C83_protocols"], "note": "Refuted: unknown functions, inherited functions, wrong numbers of arguments and unknown protocols end with status 0. What is called and how the process ends is proved."},
  {"property": "C84", "status": "partial", "theorems": ["C84_opened", "C84_socket", "C84_http_refuted", "C84_http_fails_refuted", "C84_port_refuted"], "note": "Refuted: HTTP URLs are ignored and the port of another URL is kept beside that of -p. Proved for -h and -p."},
  {"property": "C85", "status": "partial", "theorems": ["C85_equals", "C85_same_type", "C85_other", "C85_attribute", "C85_members_refuted", "C85_contains", "C85_not_found", "C85_set", "C85_map", "C85_set_read", "C85_set_refuted", "C85_map_refuted"], "note": "Refuted: Compare asks for AttributeFromFieldId, generated structs define AttributeByFieldId and have the other from the embedded TStruct, which gives nil. Proved instead: every two structs of a type are equal, lists with one contain all, a set keeps its first struct and a map with struct keys its last entry, also when read from the wire."},
  {"property": "C86", "status": "partial", "theorems": ["C86_valid_iff", "C86_lower_case", "C86_valid_refuted"], "note": "Refuted: members read, t_struct, a beside is_set_a, a beside A, type beside type_a1, a beside read_field1, and negative ids. Proved: exactly which member lists give a valid declaration, and for lower case names that only clashes with the methods or t_struct stand against it."},
  {"property": "C87", "status": "partial", "theorems": ["C87_implements_iff", "C87_list", "C87_implements_refuted"], "note": "Refuted by a member len. Proved: it is a TStruct exactly if no member has the Go name of a method of TStruct; otherwise a list keeps an empty struct in its place and is never written."},
  {"property": "C88", "status": "partial", "theorems": ["C88_integer", "C88_integer_double_refuted", "C88_text_refuted", "C88_text_again_refuted", "C88_string", "C88_string_refuted", "C88_double", "C88_null", "C88_json"], "note": "Refuted: no integer's String is its text (it is the character of that code point), and read again only 0 survives; beyond 53 bits the float64 can be another number; texts that are no integers give 0 without a sign of it. Proved: integer accessors, float64 up to 53 bits, float64 values and their integer parts, texts of integers. strconv.FormatFloat with 10 digits is a parameter; what it loses is not stated; null is kept."},
  {"property": "C89", "status": "partial", "theorems": ["C89_equals", "C89_string_refuted", "C89_type_refuted"], "note": "Refuted for String: all negative sequence ids read the same, and the type of every message is a control character. Proved for Equals."},
  {"property": "C90", "status": "partial", "theorems": ["C90_iff", "C90_unused", "C90_refuted"], "note": "C90_iff: holds exactly if the program includes none, has a struct or exception, no service extends one and every service has a function (and the module is not fmt, math or thrift). Refuted for the rest: imports of includes and of extended services are printed after func init, and without a struct fmt is imported and not used."},
  {"property": "C91", "status": "partial", "theorems": ["C91_iff", "C91_methods_refuted", "C91_const_refuted"], "note": "C91_iff for lower case names (services and functions not called new or i): exactly if types, services, functions of all services, and constants with enum values differ. Refuted for all names: two services with a function of the same name; a constant of an enum type named like one of its values. Missing: an iff for names with capitals and underscores."},
  {"property": "C92", "status": "partial", "theorems": ["C92_iff", "C92_refuted"], "note": "C92_iff lists the names that arguments and exceptions must not have. Refuted: arguments p, err, nil, thrift, oprot; exceptions value, seqId; an exception named like an argument; and others. The number behind a temporary's name is a parameter below 2^63."},
  {"property": "C93", "status": "partial", "theorems": ["C93_resolved", "C93_typedef", "C93_refuted"], "note": "Proved for programs that name only types of their own and whose services and functions have no double underscore and none at the end. Refuted without these. What method bodies of structs use beyond the types of members is not modelled."},
  {"property": "C94", "status": "partial", "theorems": ["C94_layout", "C94_name_iff", "C94_refuted"], "note": "C94_layout for modules that do not end in a dot. C94_name_iff: the clause is valid exactly if the last piece is a name for a package. Refuted: program names with a dash, modules ending in a dot (empty package name), last pieces that are keywords."},
  {"property": "C95", "status": "partial", "theorems": ["C95_distinct_iff", "C95_distinct_refuted"], "note": "C95_distinct_iff: exactly if services have different names and none is called ttypes; refuted by that name."},
  {"property": "C96", "status": "partial", "theorems": ["C96_built_iff", "C96_built_refuted"], "note": "C96_built_iff: exactly if the name does not begin with an underscore and what follows its last one is neither test nor an operating system or architecture; refuted by mail_test and _mail."},
  {"property": "C97", "status": "partial", "theorems": ["C97_include_iff", "C97_include_refuted", "C97_remote_iff"], "note": "C97_include_iff: exactly for modules without a dot; refuted by com.shop. C97_remote_iff: the remote client's import is right unless the module ends in a dot."},
  {"property": "C98", "status": "partial", "theorems": ["C98_plain_iff", "C98_plain_refuted", "C98_members_iff"], "note": "C98_plain_iff (typedefs, enums, services): exactly if no line begins with a slash; refuted by /etc/hosts. C98_members_iff (structs, functions): always. generate_docstring_comment of the base class, which is not in the repository, is taken to print every line behind the prefix."},
  {"property": "C99", "status": "partial", "theorems": ["C99_answers_partial", "C99_states_partial", "C99_calls_partial", "C99_small_states_partial", "C99_small_calls_partial", "C99_unknown_partial", "C99_i16_refuted", "C99_cut_refuted"], "note": "Proved for values TJSONProtocol carries (C59): C99_calls_partial for messages cut where the reader can go on, C99_small_calls_partial for messages that arrive in one piece, C99_answers_partial for any request whatever that does not make the processor panic, C99_unknown_partial for unknown methods. Missing: binary members and oneway functions. Refuted: after one call with an i16 argument every later call on the connection fails (C99_i16_refuted); so do calls whose bytes arrive cut at an unlucky place (C99_cut_refuted). C99_*states_partial are the forms that ask the handler only about the calls made. The JSON parts take a transport that ends after each message; on an open one a call without arguments blocks (C116)."},
  {"property": "C100", "status": "partial", "theorems": ["C100_refused_iff", "C100_list", "C100_set", "C100_map", "C100_nil", "C100_texts_refuted"], "note": "C100_refused_iff gives the exact set of refused data, C100_list, C100_set, C100_map and C100_nil what the containers do. Refuted: among the refused data are the texts of numbers, while texts that are no numbers are put in as 0 (C100_texts_refuted; the cause is C63)."},
  {"property": "C101", "status": "partial", "theorems": ["C101_loop", "C101_ends", "C101_goroutine_iff", "C101_write", "C101_map", "C101_store_refuted", "C101_delete_refuted", "C101_write_refuted"], "note": "C101_loop and C101_ends for loops that store nothing ahead of where they are, C101_goroutine_iff: the goroutine ends exactly if every element was seen. Refuted: an early return, as generated Write functions do on an error, leaves the goroutine waiting for ever (C101_write gives the exact condition, C101_write_refuted a case); stores ahead and Delete in the loop give results that depend on the interleaving; map key types without a case kill the program (C101_map)."},
  {"property": "C102", "status": "partial", "theorems": ["C102_framed_binary_partial", "C102_framed_compact_partial", "C102_json_partial", "C102_simple_partial", "C102_binary_partial", "C102_compact_partial", "C102_one_answer", "C102_client", "C102_nil_refuted", "C102_zip_refuted", "C102_names_refuted", "C102_operations"], "note": "Over the binary and the compact protocol, plain and framed, and over TJSONProtocol and TSimpleJSONProtocol with messages in one piece. Refuted: a calculate without a Work makes the handler panic, a zip makes the next call fail, and the tutorial uses names for the operations that the generated package does not declare. The JSON parts take a transport that ends after each message; on an open one a call without arguments blocks (C116)."},
  {"property": "C103", "status": "proved", "theorems": ["C103_session", "C103_in_order", "C103_all_replied", "C103_ends_connection", "C103_stop", "C103_same_factories", "C103_default"], "note": "Plain transports are the connection itself (TTransportFactory's default returns its argument); framed ones a TFramedTransport on each side. JSON protocol factories are not covered."},
  {"property": "C104", "status": "partial", "theorems": ["C104_rounds", "C104_only_answers_partial", "C104_compact_answers_partial", "C104_names"], "note": "The bound on rounds is for plain input, binary or compact, and any output. That only answers are written is for any input; connections on which the processor panics are excluded (C44 shows requests that make it). Over TCompactProtocol (C104_compact_answers_partial) results and texts are as in C44, and names must leave room for the text of the answer in an int32 length: with TBinaryProtocol input they do whenever the input is short enough (C104_names); with TCompactProtocol input a name is as long as the client claims, the missing bytes being zeros, so the hypothesis `meets` speaks of the names the connection really meets."},
  {"property": "C105", "status": "proved", "theorems": ["C105_shared", "C105_own_answers", "C105_finishes", "C105_one_by_one", "C105_in_turn", "C105_isolated"], "note": "The calls of Process of different connections are taken not to overlap; a handler whose calls Go lets overlap is outside the model. C105_isolated and C105_in_turn hold for any bytes, the others for clients that send valid requests."},
  {"property": "C106", "status": "partial", "theorems": ["C106_read_partial", "C106_write_partial", "C106_round_trip_partial", "C106_unset_enum_refuted", "C106_list_refuted", "C106_set_refuted", "C106_set_again_refuted", "C106_map_refuted", "C106_pushed_refuted"], "note": "The equalities are partial because they are false of containers of typedef'd base types and enums and of unset members of a typedef'd enum; the refutations are universal (every naming of Go types, every element). Typedefs of structs do not compile and are outside the model."},
  {"property": "C107", "status": "partial", "theorems": ["C107_answers", "C107_methods", "C107_opposite_partial", "C107_struct_refuted", "C107_nan_refuted", "C107_not_compared", "C107_doubles", "C107_doubles_iff"], "note": "The symmetry is partial because it is false for NaN and structs, and meaningless for maps, whose iteration order Go leaves open. C107_doubles covers doubles and lists and sets of them as long as none is or becomes a NaN; C107_doubles_iff: for two float64 exactly then."},
  {"property": "C108", "status": "partial", "theorems": ["C108_wraps_partial", "C108_same_buffers", "C108_closed_refuted", "C108_http", "C108_elsewhere_refuted", "C108_socket", "C108_ignored_refuted", "C108_unserved_refuted"], "note": "False of the factories of memory buffers, HTTP clients and sockets, for every transport; for connections, exactly the plain and framed factories have the property."},
  {"property": "C109", "status": "partial", "theorems": ["C109_reads", "C109_nonblocking_writes", "C109_open", "C109_nonblocking_open_refuted", "C109_flush", "C109_flush_partial", "C109_flush_refuted"], "note": "Flush is partial: under the right deadline only right after the Write. Times are unbounded integers."},
  {"property": "C110", "status": "partial", "theorems": ["C110_truncated_value_reported", "C110_truncated_scalar", "C110_integers_refuted", "C110_boolean_refuted", "C110_truncated_message_reported"], "note": "Values, texts and chunkings as in C59 (plain_val, readable). Scalars on their own are refuted: a cut number is a shorter number."},
  {"property": "C111", "status": "partial", "theorems": ["C111_scalars", "C111_string_arrays", "C111_floats", "C111_nan_refuted", "C111_int64_refuted"], "note": "NaN and the parameter type of CompareInt64 are refuted."},
  {"property": "C112", "status": "partial", "theorems": ["C112_json_talk_partial", "C112_asked", "C112_only", "C112_talk_partial", "C112_status_refuted", "C112_http_refuted", "C112_waits_refuted", "C112_simple_talk_partial"], "note": "The exit status, the waiting server and --http are refuted; the dialogue over TJSONProtocol and TSimpleJSONProtocol without frames is C112_json_talk_partial and C112_simple_talk_partial; over JSON under frames it is not proved. The JSON parts take a transport that ends after each message; on an open one a call without arguments blocks (C116)."},
  {"property": "C113", "status": "partial", "theorems": ["C113_answers", "C113_calls_partial", "C113_small_calls_partial", "C113_failed_refuted", "C113_afterwards_refuted", "C113_unknown_refuted"], "note": "The calls are proved for handlers that do not fail and for values the protocol keeps (splain, texts up to 3000 bytes or pieces it can read); for every failing handler and for an unknown method with arguments the claim is refuted."},
  {"property": "C114", "status": "partial", "theorems": ["C114_binary_partial", "C114_compact_partial", "C114_framed_partial", "C114_json_partial", "C114_simple_partial", "C114_golden_binary", "C114_golden_compact", "C114_golden_framed", "C114_golden_json", "C114_golden_simple", "C114_defaults_refuted", "C114_wide_refuted", "C114_sets_refuted"], "note": "C114_golden_* are for the golden service, the others for any method that takes and returns one value of a type without sets and maps; those are partial because of the refutations (defaults, wide numbers, sets)."},
  {"property": "C115", "status": "partial", "theorems": ["C115_compare", "C115_types", "C115_total_order", "C115_methods", "C115_equal_partial", "C115_entries_refuted", "C115_same_refuted", "C115_entries", "C115_list_refuted", "C115_map_keys_refuted", "C115_hint_refuted"], "note": "Keys and values of scalars, lists and sets. That equal maps have the same entries and the other way round holds only with at most one entry or for keys kept in a list (C115_entries); for Go maps C115_equal_partial gives equal keys and equal values, and both directions of the claim are refuted."},
  {"property": "C116", "status": "partial", "theorems": ["C116_server", "C116_connection", "C116_binary_reply", "C116_compact_reply", "C116_json_brace_refuted", "C116_json_server_refuted", "C116_json_client_refuted"], "note": "Holds for TBinaryProtocol and TCompactProtocol on a transport without buffering (C116_server, C116_connection, C116_binary_reply, C116_compact_reply). Refuted for TJSONProtocol: the empty struct at the end of a message (universally, C116_json_brace_refuted), the tutorial's server and client on ping. That other JSON messages are read without reading on is only an example here."},
  {"property": "C117", "status": "partial", "theorems": ["C117_session", "C117_pieces", "C117_cut_refuted"], "note": "C117_session for any pieces TJSONProtocol reads (C60), C117_pieces for requests in Reads of their own; both for members without binary and values TJSONProtocol keeps (C59). C117_cut_refuted: other cuts lose or fail the request. The loop is that of C103 (serve_loop) with the TJSONProtocol of Json.v on the plain transport; that the factories make these is not modelled. On an open connection see C116."},
  {"property": "C118", "status": "partial", "theorems": ["C118_skip_partial", "C118_read_partial", "C118_process_partial", "C118_skip_refuted", "C118_compact_refuted", "C118_process_refuted", "C118_buffer_refuted"], "note": "C118_skip_partial, C118_read_partial, C118_process_partial: Reads are counted by a transport (counted_read) under the protocols of Over.v; missing is the end of the input, where C118_skip_refuted, C118_compact_refuted and C118_process_refuted give the exact number for every declared size. C118_buffer_refuted for sizes of buffers. Loops of Skip over elements of an unknown type, which read nothing, and the memory of containers are not measured; TJSONProtocol is not treated."},
  {"property": "C119", "status": "partial", "theorems": ["C119_read", "C119_process", "C119_process_panics", "C119_server", "C119_server_panics", "C119_compact_refuted", "C119_tutorial", "C119_compact_partial", "C119_json_read", "C119_json_server", "C119_json_containers", "C119_json_refuted", "C119_json_tutorial"], "note": "C119_read is an equivalence over TBinaryProtocol. C119_process and C119_server (plain or framed on either side) for services with plain arguments whose handlers give results that can be written, as in C44; C119_process_panics and C119_server_panics for all others; C119_tutorial for the Calculator, with its handler's own panics (C102_nil_refuted) taken as errors. C119_compact_refuted for TCompactProtocol: every service. These remove the exception for panics from C44 and C104 for such services. Over TJSONProtocol (PropCalmJson.v): C119_json_read (and TSimpleJSONProtocol), C119_json_server and C119_json_tutorial for types without containers, binary allowed in arguments, results without binary, as long as no error comes together with data; C119_json_containers gives a text for every container; C119_json_refuted shows that an error together with data makes every service panic. For containers within structs over JSON no text is built. A panic for a length beyond memory (C118_buffer_refuted) is not modelled. C119_compact_partial (PropCalmCompact.v): over TCompactProtocol the readers of types without containers return on every input without a negative varint, in particular if no varint has more than four bytes (`tame`)."},
  {"property": "C120", "status": "proved", "theorems": ["C120_read", "C120_process", "C120_server", "C120_json_process", "C120_json_server", "C120_tutorial", "C120_compact", "C120_compact_server", "C120_compact_framed", "C120_framed"], "note": "Total statements: C44, C99 and C104 say what an answer is if Process returns, C119 that it does not panic; here it is proved that the result is `Ok` with an explicit amount of fuel (twice the bytes of the input plus two; the rounds of the loop: one more than the bytes), so that neither Panic nor an endless loop is possible. Function names must not be empty (over JSON a null is taken for a message of no name without being consumed). C120_framed for framed input, output or both (if no Read returns neither data nor an error). TCompactProtocol panics on eight bytes (C119_compact_refuted). Handlers are quantified and must give results that can be written, as in C44. Over TCompactProtocol Process answers every request without a negative varint and a connection ends on every input of bytes whose varints have at most four bytes (PropCompactServer.v; C120_compact_framed: the same for framed input); the texts of exceptions must have lengths in an int32, and results no binary members, which this protocol does not write (C48)."},
  {"property": "C121", "status": "partial", "theorems": ["C121_recv", "C121_frames", "C121_no_more", "C121_no_more_refuted", "C121_read", "C121_server"], "note": "C121_server is an equation between two calls of processRequest, for every service and handler; C121_read for the readers of every type, C121_recv for RecvX of every function. `unframed` is defined from ReadAll alone; C121_frames says what it is for whole frames (also empty ones) with a cut-off one at the end, C121_no_more that no bytes are added. Refuted without its hypothesis: a Read of no data and no error makes ReadAll return early without an error, and a frame is filled up with zeros (C121_no_more_refuted). TCompactProtocol too: its varint loop ends over frames also when they are filled up with zeros, since a zero ends a varint. C120_framed follows (TBinaryProtocol)."},
  {"property": "C122", "status": "proved", "theorems": ["C122_compare", "C122_containers", "C122_read", "C122_write", "C122_server", "C122_json_server", "C122_recv", "C122_send"], "note": "Go's recursion is modelled with fuel; here explicit amounts are proved to be enough, without the restriction to types without containers of C120 (which also excludes Panic: with containers it is possible, C119_process_panics). C122_compare also says that any larger amount gives the same answer, so the fuel in the theorems about containers (C37, C39, C48 \u2026) is no restriction. Values are finite (no cyclic containers) and map iteration is a permutation (`orders`). Ending says nothing about time: a reader asks for each of the declared elements until the first error. The writers' recursion follows the type, so C122_write holds for any value, of whatever Go type (a wrong one panics), and C122_server for any handler whatever it returns; C122_json_server for any state of the output. Framed input needs `busy` as C121_no_more does. C122_recv and C122_send are the client's side: RecvX for any function and any bytes sent back (an exception, a wrong sequence number, an answer cut short), SendX for any arguments and any client, also one whose constructor left a protocol nil (a panic)."},
  {"property": "C123", "status": "partial", "theorems": ["C123_returns", "C123_panics", "C123_compact_refuted", "C123_tutorial", "C123_session", "C123_compact_partial", "C123_compact_session_partial", "C123_json_session"], "note": "C119/C120 for the other end of a connection. Framed input must not have empty pieces without an error (`busy`), TJSONProtocol input no error but the end (`clean`). What RecvX returns need not be right: a field's declared wire type is not compared with the member's (the Example: a list read as a number). C123_compact_partial: over TCompactProtocol RecvX returns unless a negative varint is in the input, plain or framed. The refutation over TCompactProtocol is a universal one: every function, every setting. C123_session: any number of calls of one client over TBinaryProtocol return whatever its input holds, and the requests it writes do not depend on that. C123_compact_session_partial: any number of calls over TCompactProtocol, for answers whose varints have at most four bytes. C123_json_session: the same over TJSONProtocol for every input in which no error comes with data."}
]}
