{"id": "C01", "title": "Varint write/read round trip", "statement": "Writing any 32- or 64-bit unsigned value with the varint writer into a write buffer with enough room and reading the written bytes back with the varint reader of the same width returns the same value with no error, consumes exactly the written bytes and leaves every following byte unread.", "quantifier": "all 2^32 / 2^64 values, any bytes following the varint, any conforming read buffer", "why_tests_cant": "2^64 values times all trailing contents cannot be enumerated", "anchors": ["src/WireFormatter.h: SerializeVarint, DeserializeVarint"]}
{"id": "C02", "title": "Varint output is the canonical protobuf varint", "statement": "The varint writer emits exactly the base-128 little-endian encoding prescribed by protobuf: every byte but the last has its top bit set, the groups sum to the value, there is no redundant trailing group, and at most 5 (32 bit) or 10 (64 bit) bytes are used.", "quantifier": "all 32- and 64-bit unsigned values", "why_tests_cant": "unbounded set of values", "anchors": ["src/WireFormatter.h: SerializeVarint"]}
{"id": "C03", "title": "Varint reader decides every byte string", "statement": "For every byte string in the buffer the varint reader returns exactly one of: the value of the first 7-bit groups (modulo the integer width) when a byte without continuation bit occurs within the first 5/10 bytes; OVERLONG_VARINT when 5/10 continuation bytes are read; END_OF_BUFFER when the bytes run out first. On an error the output variable is not assigned. It never reads more than 5/10 bytes.", "quantifier": "all finite byte strings, widths 32 and 64", "why_tests_cant": "infinitely many byte strings, including malformed ones", "anchors": ["src/WireFormatter.h: DeserializeVarint"]}
{"id": "C04", "title": "ZigZag is a bijection equal to the protobuf map", "statement": "ZigZag encoding of a signed 32/64-bit n equals 2n for n>=0 and -2n-1 for n<0; decoding inverts encoding on every signed value and encoding inverts decoding on every unsigned value.", "quantifier": "all int32/int64 and uint32/uint64 values", "why_tests_cant": "2^64 values", "anchors": ["src/WireFormatter.h: ZigZagEncode, ZigZagDecode"]}
{"id": "C05", "title": "Fixed-width little-endian round trip", "statement": "Writing a fixed32/fixed64 emits exactly 4/8 bytes, least significant first, and reading them back returns the value, consumes exactly those bytes; with fewer than 4/8 bytes available the reader returns END_OF_BUFFER and does not assign its output.", "quantifier": "all 32/64-bit values, all trailing bytes, all truncation points", "why_tests_cant": "2^64 values and every truncation point", "anchors": ["src/WireFormatter.h: SerializeFixedNoTag, DeserializeFixed"]}
{"id": "C06", "title": "Field tags encode number and wire type faithfully", "statement": "For every legal field number (1..2^29-1) and wire type the written tag read back yields that number and wire type; a tag with wire type 6 or 7 is rejected with INVALID_WIRETYPE and one whose varint is malformed reports the varint error.", "quantifier": "all legal field numbers x wire types, all byte strings", "why_tests_cant": "2^29 field numbers x all malformed tags", "anchors": ["src/WireFormatter.h: MakeTag, DeserializeTag"]}
{"id": "C07", "title": "int32 reader accepts both sign-extension conventions", "statement": "A negative int32 is written as a 5-byte varint, and the int32 reader returns the same value for that 5-byte form and for the 10-byte sign-extended form that other protobuf implementations emit.", "quantifier": "all int32 values, any following bytes", "why_tests_cant": "2^31 negative values", "anchors": ["src/WireFormatter.h: DeserializeInt", "src/Fields.h: serialize_<int32>, deserialize_<int32>"]}
{"id": "C08", "title": "Every scalar type round-trips", "statement": "For each of the 14 scalar field types (int32, int64, uint32, uint64, sint32, sint64, bool, enum, fixed32, fixed64, sfixed32, sfixed64, float, double) writing any representable value and reading it back yields the identical value (bit pattern for float/double, NaN payloads included), consuming exactly the bytes written.", "quantifier": "all scalar types x all representable values x all trailing bytes", "why_tests_cant": "value spaces up to 2^64", "anchors": ["src/Fields.h: FieldTemplate::serialize, FieldTemplate::deserialize"]}
{"id": "C09", "title": "Any valid protobuf bool varint is understood", "statement": "A bool field whose value is transmitted as any well-formed varint (as protobuf permits) is decoded to true iff the varint is non-zero and the reader continues at the next field.", "quantifier": "all well-formed varints of 1..10 bytes", "why_tests_cant": "needs every non-canonical encoding", "anchors": ["src/WireFormatter.h: DeserializeBool"]}
{"id": "C10", "title": "Fixed write buffer is a bounded byte log", "statement": "After any sequence of single-byte pushes, bulk pushes and clears on a fixed-size write buffer of capacity N: no memory outside the N-byte array is written, get_size is at most N, get_size + get_available_size = N, and the stored bytes are exactly the concatenation of all accepted pushes since the last clear, in order; a refused push changes nothing.", "quantifier": "all capacities, all operation sequences", "why_tests_cant": "unbounded histories", "anchors": ["src/WriteBufferFixedSize.h: push, clear, get_size, get_available_size"]}
{"id": "C11", "title": "Bulk push succeeds exactly when the bytes fit", "statement": "Pushing an array of L bytes into a fixed-size write buffer returns true and stores the bytes if and only if at least L bytes are still available.", "quantifier": "all capacities, fill levels and lengths", "why_tests_cant": "boundary depends on capacity, fill level and 32-bit wrap-around jointly", "anchors": ["src/WriteBufferFixedSize.h: push(const uint8_t*, uint32_t)", "src/WriteBufferInterface.h"]}
{"id": "C12", "title": "Fixed read buffer is a FIFO", "statement": "After any sequence of push, pop, peek, advance() and clear on a fixed-size read buffer the popped bytes are the pushed bytes in order without loss or duplication, peek returns what the next pop will return without consuming it, no access leaves the array, and all operations fail without side effect on an empty (resp. full) buffer.", "quantifier": "all capacities, all operation histories", "why_tests_cant": "unbounded histories", "anchors": ["src/ReadBufferFixedSize.h: push, pop, peek, advance, clear"]}
{"id": "C13", "title": "advance(N) only moves forward over available bytes", "statement": "advance(N) on a fixed-size read buffer succeeds iff at least N unread bytes are stored and then skips exactly N bytes; otherwise it returns false and changes nothing. It never makes an already consumed byte readable again.", "quantifier": "all buffer states and all 32-bit N", "why_tests_cant": "wrap-around only at N near 2^32", "anchors": ["src/ReadBufferFixedSize.h: advance(const uint32_t)", "src/ReadBufferInterface.h"]}
{"id": "C14", "title": "A section exposes exactly its window", "statement": "A section of size n over any read buffer yields exactly the first n bytes that the parent would have yielded (or all of them when fewer are left), for any sequence of pop/peek/advance on it (also nested sections), consumes from the parent exactly the bytes it yielded, and leaves the bytes behind the window untouched.", "quantifier": "all parents, window sizes, nesting depths and operation sequences", "why_tests_cant": "unbounded operation sequences and nesting", "anchors": ["src/ReadBufferSection.cpp: ReadBufferSection, pop, peek, advance"]}
{"id": "C15", "title": "Section advance(N) reports whether N bytes were held", "statement": "advance(N) on a section returns true iff the section still held N or more bytes (its documented result).", "quantifier": "all section states, all N", "why_tests_cant": "all sizes", "anchors": ["src/ReadBufferSection.cpp: advance(const uint32_t)", "src/ReadBufferSection.h"]}
{"id": "C16", "title": "serialized_size equals the bytes written", "statement": "For every message type and every reachable message value, serialized_size() equals the number of bytes a successful serialize() of that message appends to any write buffer.", "quantifier": "all message types (any nesting, optional, oneof, repeated), all reachable values, all conforming write buffers", "why_tests_cant": "types and values unbounded", "anchors": ["src/Fields.cpp: serialized_size", "src/MessageSizeCalculator.h", "generator/EmbeddedProto/templates/TypeDefMsg.h: serialize"]}
{"id": "C17", "title": "Serialization into exactly enough space succeeds", "statement": "serialize() into a fixed-size write buffer succeeds if and only if the space still available is at least serialized_size().", "quantifier": "all message types, values, capacities and prior fill levels", "why_tests_cant": "boundary depends on the value and capacity jointly", "anchors": ["src/WriteBufferFixedSize.h: push", "src/FieldStringBytes.h: serialize_with_id", "src/MessageInterface.cpp: serialize_with_id"]}
{"id": "C18", "title": "Failed serialization leaves a clean prefix", "statement": "Whatever the capacity, serialize() either returns NO_ERRORS and has appended the complete encoding, or returns BUFFER_FULL and has appended a proper prefix of it; earlier buffer contents are never modified and nothing is written outside the buffer.", "quantifier": "all message types, values, capacities, fill levels", "why_tests_cant": "every capacity below the size is a separate failure point inside some field", "anchors": ["generator/EmbeddedProto/templates/TypeDefMsg.h: serialize", "src/MessageInterface.cpp: serialize_with_id", "src/RepeatedField.h: serialize_with_id"]}
{"id": "C19", "title": "Serialized bytes are the protobuf encoding", "statement": "The bytes appended by a successful serialize() are the protobuf encoding of the message: for each field in declaration order followed by the oneofs, the tag and payload of each present value; proto3 implicit-presence scalars/strings equal to the default and empty repeated fields are omitted; optional and oneof members are written even when default; scalar repeated fields are packed, strings/bytes/messages are length-prefixed one by one.", "quantifier": "all message types and reachable values", "why_tests_cant": "types and values unbounded", "anchors": ["generator/EmbeddedProto/templates/TypeDefMsg.h: serialize", "generator/EmbeddedProto/templates/Field*_Serialize.h", "src/RepeatedField.h", "src/FieldStringBytes.h"]}
{"id": "C20", "title": "Message round trip", "statement": "Deserializing, into a freshly constructed (or cleared) message of the same type, the bytes produced by a successful serialize() returns NO_ERRORS and yields a message all of whose getters (values, has_ flags, lengths, which-oneof) equal those of the original (0.0 and -0.0 in a plain float field count as equal here; the bit pattern is C21).", "quantifier": "all message types and reachable values, any conforming read buffer", "why_tests_cant": "types and values unbounded", "anchors": ["generator/EmbeddedProto/templates/TypeDefMsg.h: serialize, deserialize"]}
{"id": "C21", "title": "Negative zero survives the round trip", "statement": "A float/double field set to -0.0 is -0.0 again (same bit pattern) after serialize/deserialize.", "quantifier": "all messages with a float/double field", "why_tests_cant": "single special bit pattern in a 2^64 space", "anchors": ["generator/EmbeddedProto/templates/FieldBasic_Serialize.h"]}
{"id": "C22", "title": "Decoder implements the protobuf merge semantics", "statement": "For every byte string that is a well-formed sequence of records (canonical or not) for a message type, deserialize() returns NO_ERRORS and the result is the protobuf merge of those records into the previous message value: last value wins for singular scalars/strings, sub-messages merge field by field, repeated values append (packed chunks concatenate), oneof keeps only the last member, unknown fields are ignored.", "quantifier": "all message types, all well-formed record sequences, all clean starting values, any conforming read buffer", "why_tests_cant": "infinitely many valid encodings of every message", "anchors": ["generator/EmbeddedProto/templates/TypeDefMsg.h: deserialize", "src/RepeatedField.h: deserialize_packed, deserialize_unpacked", "generator/EmbeddedProto/templates/TypeOneof.h: deserialize"]}
{"id": "C23", "title": "Concatenation equals successive decoding", "statement": "Decoding the concatenation of two well-formed encodings gives the same message as decoding the first and then decoding the second into the same object.", "quantifier": "all message types, all pairs of well-formed encodings", "why_tests_cant": "unbounded", "anchors": ["generator/EmbeddedProto/templates/TypeDefMsg.h: deserialize"]}
{"id": "C24", "title": "Unknown fields are skipped", "statement": "Inserting any number of well-formed varint, 32-bit, 64-bit or length-delimited records with field numbers the message type does not know, between any records of an encoding, does not change the decoded message or the returned error.", "quantifier": "all message types, all unknown records, all positions", "why_tests_cant": "unbounded payloads and positions", "anchors": ["src/MessageInterface.cpp: skip_unknown_field"]}
{"id": "C25", "title": "Unknown group content does not leak into the message", "statement": "A record with an unknown field number using the (deprecated) group wire types is skipped including its contents or reported as an error; data inside it never sets fields of the surrounding message.", "quantifier": "all message types, all group contents", "why_tests_cant": "unbounded contents", "anchors": ["src/MessageInterface.cpp: skip_unknown_field (default case)", "src/WireFormatter.h: DeserializeTag"]}
{"id": "C26", "title": "A truncated unknown field is reported", "statement": "When the buffer ends inside the payload of an unknown length-delimited field deserialize() does not report success for that message, and payload bytes are not interpreted as fields.", "quantifier": "all message types, lengths and truncation points", "why_tests_cant": "every truncation point", "anchors": ["src/MessageInterface.cpp: skip_length_delimited", "src/ReadBufferFixedSize.h: advance"]}
{"id": "C27", "title": "Decoding never leaves memory bounds", "statement": "For every message type, every object state reachable through the API, every byte string and every conforming read buffer, deserialize() performs no out-of-bounds access, reads no uninitialised data into the result and leaves the object in a valid state (lengths within capacity, initialised values), whether it succeeds or fails.", "quantifier": "all message types, reachable states, byte strings (malformed included)", "why_tests_cant": "adversarial inputs are unbounded", "anchors": ["generator/EmbeddedProto/templates/TypeDefMsg.h: deserialize", "src/FieldStringBytes.h: deserialize", "src/RepeatedFieldFixedSize.h: get, add"]}
{"id": "C28", "title": "Decoding always terminates", "statement": "deserialize() returns after finitely many steps for every byte string held by a fixed-size read buffer.", "quantifier": "all message types, all byte strings", "why_tests_cant": "an endless loop is only reachable by specific lengths near 2^32", "anchors": ["generator/EmbeddedProto/templates/TypeDefMsg.h: deserialize loop", "src/ReadBufferFixedSize.h: advance", "src/MessageInterface.cpp: skip_length_delimited"]}
{"id": "C29", "title": "Truncated messages are detected", "statement": "If deserialize() succeeds on a strict prefix of a valid encoding then the prefix ends at a record boundary (nothing inside a tag, a nested message or a packed array is cut off unnoticed).", "quantifier": "all message types, encodings and truncation points", "why_tests_cant": "every truncation point of every encoding", "anchors": ["src/MessageInterface.cpp: deserialize_check_type", "src/RepeatedField.h: deserialize_packed", "generator/EmbeddedProto/templates/TypeDefMsg.h: deserialize"]}
{"id": "C30", "title": "String/bytes length never exceeds capacity", "statement": "Under any sequence of set(ptr,len), set(C string), indexed writes, decode and clear, a string/bytes field reports get_length() <= its capacity, never writes outside its array, and set(ptr,len) with len above the capacity returns ARRAY_FULL and leaves the field unchanged while otherwise it makes the content exactly the given bytes. Assigning a field of another capacity copies its bytes exactly, or leaves the field unchanged when they do not fit.", "quantifier": "all capacities, all operation histories and arguments", "why_tests_cant": "unbounded histories", "anchors": ["src/FieldStringBytes.h: set, get, clear, deserialize", "src/FieldStringBytes.h: FieldString::set"]}
{"id": "C31", "title": "The C-string accessor agrees with the stored string", "statement": "The const char* returned by a string field's accessor is a NUL-terminated string equal to the stored get_length() characters (when they contain no NUL).", "quantifier": "all capacities, all operation histories", "why_tests_cant": "depends on leftovers from earlier longer values", "anchors": ["generator/EmbeddedProto/templates/FieldString_GetSet.h", "src/FieldStringBytes.h: set(const DATA_TYPE*, uint32_t)"]}
{"id": "C32", "title": "Assigning a C string stores its longest fitting prefix", "statement": "set(const char*) makes the content the first min(strlen, capacity) characters, does not read past the terminator (nor more than capacity+1 characters) and NUL-terminates the storage whenever the length is below capacity; a null pointer clears the field.", "quantifier": "all capacities, all C strings and previous contents", "why_tests_cant": "unbounded", "anchors": ["src/FieldStringBytes.h: FieldString::set(const char*), strnlen"]}
{"id": "C33", "title": "String/bytes decode is all-or-nothing on length", "statement": "Decoding a length-prefixed value into a string/bytes field yields exactly the payload when it fits; a length above capacity returns ARRAY_FULL and leaves the old content of a plain or optional field; a payload cut short returns END_OF_BUFFER. The same holds of a oneof member (which a refused record unsets, C38) and of an element of a repeated field (refused elements: C73).", "quantifier": "all capacities, lengths, payloads, truncations", "why_tests_cant": "unbounded", "anchors": ["src/FieldStringBytes.h: deserialize"]}
{"id": "C34", "title": "Repeated field behaves as a bounded list", "statement": "Under any sequence of add, set(index), get(index)-writes, set_data, assignment and clear, a repeated field of capacity N behaves as a list of at most N elements: add appends or returns ARRAY_FULL unchanged when full, set_data replaces the content or returns ARRAY_FULL unchanged, get_const with an index below the length returns that element and otherwise INDEX_OUT_OF_BOUND, and no access leaves the array.", "quantifier": "all element types, capacities N>0, operation histories", "why_tests_cant": "unbounded histories", "anchors": ["src/RepeatedFieldFixedSize.h"]}
{"id": "C35", "title": "Decoded repeated messages do not depend on history", "statement": "An element appended by decoding to a repeated message field depends only on the decoded bytes, not on values the field held earlier.", "quantifier": "all histories of the repeated field before decoding", "why_tests_cant": "depends on a previously longer content", "anchors": ["src/RepeatedField.h: deserialize_unpacked", "src/RepeatedFieldFixedSize.h: set_data, operator="]}
{"id": "C36", "title": "Optional presence flags are independent", "statement": "For a message with any number of optional fields, set/mutable/clear/decode of one optional field changes has_ of exactly that field: has_ is true right after set/mutable/decode and false after clear; the flags of all other optional fields keep their value, and no access leaves the presence array.", "quantifier": "any number of optional fields, all operation sequences", "why_tests_cant": "field counts beyond 32-bit word boundaries and unbounded histories", "anchors": ["generator/EmbeddedProto/templates/TypeDefMsg.h: presence", "generator/EmbeddedProto/templates/FieldBasic_GetSet.h"]}
{"id": "C37", "title": "At most one oneof member is set", "statement": "After any sequence of API calls and decodes at most one member of each oneof reports has_, it is the member most recently set/decoded (and not cleared), its value is initialised and equals what was set, and different oneofs of a message do not influence one another.", "quantifier": "all message types with oneofs, all histories", "why_tests_cant": "unbounded histories", "anchors": ["generator/EmbeddedProto/templates/TypeOneof.h", "generator/EmbeddedProto/templates/Field*_GetSet.h"]}
{"id": "C38", "title": "A failed oneof decode leaves the oneof unset", "statement": "If decoding the payload of a oneof member fails, no member of that oneof reports has_ afterwards.", "quantifier": "all oneofs, all malformed payloads, all prior states", "why_tests_cant": "unbounded malformed payloads", "anchors": ["generator/EmbeddedProto/templates/TypeOneof.h: deserialize"]}
{"id": "C39", "title": "Copying a message copies every observable value", "statement": "Copy construction and copy assignment make all getters of the destination equal to those of the source, for every previous content of the destination, and do not change the source.", "quantifier": "all message types, all source and destination states", "why_tests_cant": "pairs of unbounded histories", "anchors": ["generator/EmbeddedProto/templates/TypeDefMsg.h: copy constructor, operator=", "generator/EmbeddedProto/templates/TypeOneof.h: assign", "src/RepeatedFieldFixedSize.h: operator="]}
{"id": "C40", "title": "clear() restores the default message", "statement": "After clear(), from any state, every getter returns what a freshly constructed message returns, and serialize() writes nothing.", "quantifier": "all message types, all states", "why_tests_cant": "unbounded states", "anchors": ["generator/EmbeddedProto/templates/TypeDefMsg.h: clear"]}
{"id": "C41", "title": "Fields dropped for recursion do not disturb the others", "statement": "For a message type whose self-recursive field was left out by the generator, decoding data that contains that field still decodes all other fields correctly (the field is skipped).", "quantifier": "all message types with a dropped field, all payloads", "why_tests_cant": "unbounded payloads", "anchors": ["generator/EmbeddedProto/Field.py: FieldErrorRecursive", "generator/EmbeddedProto/templates/TypeDefMsg.h: deserialize"]}
{"id": "C42", "title": "Repeated scalars decode in packed and unpacked form", "statement": "A repeated scalar field is decoded from packed records and also from one-record-per-element (unpacked) form, as protobuf parsers must.", "quantifier": "all scalar types, element counts, both encodings", "why_tests_cant": "unbounded", "anchors": ["src/RepeatedField.h: deserialize_check_type"]}
{"id": "C43", "title": "A wire type mismatch is reported", "statement": "A record whose field number is known but whose wire type differs from the field's returns INVALID_WIRETYPE, the payload is not consumed and no field value other than a presence flag / oneof selection is changed.", "quantifier": "all message types, fields and wrong wire types", "why_tests_cant": "unbounded types", "anchors": ["src/Fields.h: deserialize_check_type", "src/FieldStringBytes.h", "src/MessageInterface.cpp", "src/RepeatedField.h"]}
{"id": "C44", "title": "Field number zero is rejected", "statement": "A record with field number 0 makes deserialize() return INVALID_FIELD_ID; all values decoded before it are kept and nothing after it is decoded.", "quantifier": "all message types, all record sequences before it", "why_tests_cant": "unbounded", "anchors": ["generator/EmbeddedProto/templates/TypeDefMsg.h: deserialize"]}
{"id": "C45", "title": "The write path never reports success after a refused byte", "statement": "If serialize()/varint writing returns NO_ERRORS then every byte it offered to the write buffer was accepted, for any implementation of the write buffer interface.", "quantifier": "all implementations of the write buffer interface", "why_tests_cant": "user supplied buffers may refuse any byte at any time", "anchors": ["src/WireFormatter.h: SerializeVarint"]}
{"id": "C46", "title": "Sub-message decoding is confined to its length", "statement": "Decoding a length-delimited sub-message, string, bytes or packed value of declared length n never consumes more than n payload bytes of the enclosing buffer, whatever the payload contains, and on success of a sub-message exactly n (or all that were left).", "quantifier": "all message types, lengths, payloads (malformed included)", "why_tests_cant": "adversarial payloads", "anchors": ["src/MessageInterface.cpp: deserialize_check_type", "src/ReadBufferSection.cpp"]}
{"id": "C47", "title": "Decoding then re-encoding is stable", "statement": "If deserialize() of a well-formed record sequence succeeds, serializing the result and decoding that again yields the same observable message (0.0 and -0.0 of plain float fields count as equal).", "quantifier": "all message types, all well-formed encodings (canonical or not)", "why_tests_cant": "unbounded", "anchors": ["generator/EmbeddedProto/templates/TypeDefMsg.h: serialize, deserialize"]}
{"id": "C48", "title": "Raw wire formatter functions agree with the field classes", "statement": "The public tag+value functions (SerializeInt/UInt/SInt/Fixed/SFixed/Float/Double/Bool/Enum) emit byte for byte what the corresponding field class emits for the same field number and value.", "quantifier": "all field numbers, scalar types, values and buffer capacities", "why_tests_cant": "unbounded value space and failure points", "anchors": ["src/WireFormatter.h: SerializeInt..SerializeEnum", "src/Fields.h: serialize_with_id"]}
{"id": "C49", "title": "to_string stays within the supplied buffer", "statement": "to_string() never writes outside the character buffer described by the view passed to it, whatever its size, and returns a view inside that buffer.", "quantifier": "all message types, values and buffer sizes", "why_tests_cant": "every buffer size below the output length is a failure point", "anchors": ["generator/EmbeddedProto/templates/TypeDefMsg.h: to_string", "src/Fields.h: to_string", "src/FieldStringBytes.h: to_string", "src/RepeatedField.h: to_string"]}
{"id": "C50", "title": "Generated types declare every template parameter they use", "statement": "For every set of messages the generator accepts, each template length parameter used in a generated field type is declared in the template parameter list of the message (once), and the type of a message field has an argument for each template parameter of that message's class.", "quantifier": "all sets of message definitions that protoc accepts", "why_tests_cant": "unbounded schemas", "anchors": ["generator/EmbeddedProto/main.py: generate_code", "generator/EmbeddedProto/Field.py: register_template_parameters, get_template_parameters", "generator/EmbeddedProto/TypeDefinitions.py"]}
{"id": "C51", "title": "Integer fields accept every legal varint", "statement": "A uint32 or enum field (like the other integer fields) is decoded from every varint of at most ten bytes, as written by other protobuf implementations (which write negative enum and int32 values in ten bytes); the value is the encoded number modulo 2^32.", "quantifier": "all message types, values and varint lengths up to ten bytes", "why_tests_cant": "non-canonical and sign-extended encodings of every value", "anchors": ["src/WireFormatter.h: DeserializeVarint", "src/Fields.h: uint32, enumeration"]}
{"id": "C52", "title": "A rejected message leaves a well-defined object", "statement": "Whatever the input, when deserialize() returns an error all records before the offending one have taken effect exactly as in a successful decode, the offending record has changed at most one field or one oneof, and the object is valid.", "quantifier": "all message types, all object states, all byte strings", "why_tests_cant": "every failure point of every input", "anchors": ["generator/EmbeddedProto/templates/TypeDefMsg.h: deserialize"]}
{"id": "C53", "title": "Negative int32 values are written like protobuf writes them", "statement": "A negative int32 field is written as the ten-byte sign-extended varint that the protobuf encoding prescribes.", "quantifier": "all field numbers and negative values", "why_tests_cant": "compatibility with byte-exact consumers for every value", "anchors": ["src/Fields.h: int32", "src/WireFormatter.h: SerializeInt"]}
{"id": "C54", "title": "The outcome of decoding is determined by the bytes and the visible values", "statement": "For every byte string: the error code, the bytes left unread and, on success, all getters afterwards are determined by the input bytes and what the getters showed before; they do not depend on the buffer class or on invisible left-overs in the object.", "quantifier": "all message types, object states, byte strings and conforming read buffers", "why_tests_cant": "pairs of executions over all inputs", "anchors": ["generator/EmbeddedProto/templates/TypeDefMsg.h: deserialize", "src/ReadBufferSection.cpp"]}
{"id": "C55", "title": "A malformed packed field is reported", "statement": "A packed field whose length prefix is malformed, whose last element is cut off, that has an overlong element or more elements than fit makes deserialize() return an error.", "quantifier": "all scalar types, lengths and payloads", "why_tests_cant": "every malformation point", "anchors": ["src/RepeatedField.h: deserialize_packed"]}
{"id": "C56", "title": "to_string prints the message as JSON", "statement": "When the supplied buffer is large enough, the text to_string() writes is a JSON text whose values are the ones the getters of the message show.", "quantifier": "all message types, all values reachable by API calls", "why_tests_cant": "unbounded types and values; which fields come first and which characters occur in strings decide", "anchors": ["generator/EmbeddedProto/templates/TypeDefMsg.h: to_string", "generator/EmbeddedProto/templates/TypeOneof.h: to_string", "src/Fields.h: to_string", "src/FieldStringBytes.h: to_string", "src/RepeatedField.h: to_string"]}
{"id": "C57", "title": "Generated classes are declared before they are used", "statement": "In the headers the generator writes, read in the order in which protoc passes the files, the class or enum that is the type of a field is complete before the class that has the field declares its member variables.", "quantifier": "all sets of message definitions that protoc accepts and the generator does not reject", "why_tests_cant": "unbounded schemas; depends on names and nesting", "anchors": ["generator/EmbeddedProto/ProtoFile.py: ProtoFile.__init__, toposort_add_msg", "generator/EmbeddedProto/TypeDefinitions.py: sort_nested_msg_definitions"]}
{"id": "C58", "title": "Member variables have the type of their field", "statement": "For every message the generator writes exactly one class, with exactly one member variable for every field (other than fields of the message's own type), and the C++ type of the member variable, with its names looked up in that class, is the class, enum, length and template arguments the field declaration asks for.", "quantifier": "all sets of message definitions that protoc accepts and the generator does not reject", "why_tests_cant": "unbounded schemas; the same name may be declared in several scopes", "anchors": ["generator/EmbeddedProto/Field.py: factory, get_type, get_reduced_scope, get_template_parameters", "generator/EmbeddedProto/templates/TypeDefMsg.h"]}
{"id": "C59", "title": "The generator accepts what C++ can express", "statement": "The generator rejects a set of messages only if their classes cannot be put in an order in which every member variable has a complete type, or an enum would have to be named through a class template.", "quantifier": "all sets of message definitions that protoc accepts", "why_tests_cant": "unbounded schemas", "anchors": ["generator/EmbeddedProto/main.py: generate_code", "generator/EmbeddedProto/ProtoFile.py: toposort_add_msg, register_template_parameters", "generator/EmbeddedProto/TypeDefinitions.py: register_template_parameters"]}
{"id": "C60", "title": "Loading a read buffer makes exactly the loaded bytes readable", "statement": "Copying n <= N bytes to get_data() of a fixed-size read buffer of capacity N and calling set_bytes_written(n) makes exactly these bytes the ones that pop() will deliver next, whatever happened to the buffer before; a number above N is limited to N, and no sequence of calls, whatever their arguments, makes an access leave the array.", "quantifier": "all capacities, all byte strings, all histories of push, pop, peek, advance, clear and loads", "why_tests_cant": "unbounded histories; depends on what was read before the load", "anchors": ["src/ReadBufferFixedSize.h: get_data, set_bytes_written, clear, push, pop, peek, advance"]}
{"id": "C61", "title": "The members of generated classes do not collide", "statement": "For every message that protoc accepts, the class the generator writes declares no name twice (other than as overloads), no keyword, and nothing with the name of the class or of a template parameter; everything its functions name is declared; and x.n() is the accessor that reads field n.", "quantifier": "all messages that protoc accepts, with any names of fields, oneofs and nested types", "why_tests_cant": "unbounded schemas; collisions depend on combinations of names", "anchors": ["generator/EmbeddedProto/templates/TypeDefMsg.h", "generator/EmbeddedProto/templates/TypeOneof.h", "generator/EmbeddedProto/templates/Field*_GetSet.h", "generator/EmbeddedProto/Field.py: FieldErrorRecursive"]}
{"id": "C62", "title": "Comparing fields compares their values", "statement": "The operators ==, !=, <, >, <=, >= between two scalar fields (or a field and a value of its type) give the answer that holds for the numbers the fields stand for, whatever the two field types.", "quantifier": "all operators, all pairs of scalar types that can be compared, all values", "why_tests_cant": "value pairs of two 64-bit fields; conversions depend on both types", "anchors": ["src/Fields.h: operator==, operator!=, operator>, operator<, operator>=, operator<="]}
{"id": "C63", "title": "Including a generated header brings in what it needs, once", "statement": "A source file that includes any headers the generator wrote, together with the headers these include, reads the definitions of every .proto file they need (directly or through imports), each once and after the ones it imports, and of no other.", "quantifier": "all sets of .proto files that protoc accepts (file names and imports), all lists of included headers", "why_tests_cant": "unbounded import graphs; the include guards depend on the names of all files together", "anchors": ["generator/EmbeddedProto/main.py: generate_code", "generator/EmbeddedProto/ProtoFile.py: get_dependencies, get_header_guard", "generator/EmbeddedProto/templates/Header.h"]}
{"id": "C64", "title": "A generated class has the fields its .proto declares", "statement": "For every set of .proto files that is generated, and every choice of the template lengths, the class of each message is, for C++, exactly the message type that the .proto declares: the same field numbers, scalar types, strings, bytes, enums and sub-messages, the same repeated, optional and oneof fields in the same order, with the lengths of the options or of the parameters named after the field; so that its objects are written as the declared message and read back from it.", "quantifier": "all sets of message definitions that protoc accepts and the generator does not reject, all lengths", "why_tests_cant": "unbounded schemas; template arguments are passed through any number of nested messages", "anchors": ["generator/EmbeddedProto/Field.py: factory, get_type, get_template_parameters", "generator/EmbeddedProto/TypeDefinitions.py: MessageDefinition", "generator/EmbeddedProto/templates/TypeDefMsg.h"]}
{"id": "C65", "title": "Sender and receiver with different versions of a .proto", "statement": "A message that was serialized by a program with one version of a message type is read correctly by a program with another version (fields added, removed or reordered, moved into a oneof or out of one; optional added or removed; other maximal lengths; at any nesting depth): every field both know has the sender's value, every field the sender does not know is default, every field the receiver does not know is ignored, oneofs show the member that was set; and when a string or list does not fit into the receiver's object, deserialize reports ArrayFull and nothing is written outside the object.", "quantifier": "all pairs of message types where common numbers have the same type, or scalar types that may be exchanged for all values (C67), and are repeated in both or in neither, all objects of the sender, all read buffers", "why_tests_cant": "unbounded pairs of schemas, values and nesting; tests check a handful of pairs", "anchors": ["generator/EmbeddedProto/templates/TypeDefMsg.h: deserialize", "src/RepeatedFieldFixedSize.h", "src/FieldStringBytes.h", "src/WireFormatter.h"]}
{"id": "C66", "title": "Arguments that refer into the object being changed", "statement": "A setter, assignment or add() that is given a reference to a part of the same object, such as msg.set_b(msg.get_a()), msg = msg, list.add(list[0]), list.set(i, list[j]), list.set_data(&list[k], n), s.set(s.get_const() + k, n), has the same effect as if it had been given a copy of that part.", "quantifier": "all message types, all reachable objects, all pairs of places inside the object at any depth (fields, list elements, oneof members), all calls whose parameter type matches", "why_tests_cant": "the number of pairs of places and states is unbounded, and the failing case is undefined behaviour that may look right in a test", "anchors": ["generator/EmbeddedProto/templates/FieldBasic_GetSet.h: set_", "generator/EmbeddedProto/templates/FieldMsg_GetSet.h: set_", "generator/EmbeddedProto/templates/FieldString_GetSet.h: set_", "generator/EmbeddedProto/templates/TypeOneof.h: init_", "generator/EmbeddedProto/templates/TypeDefMsg.h: operator=", "src/RepeatedFieldFixedSize.h: add, set, set_data, operator="]}
{"id": "C67", "title": "Changing the scalar type of a field", "statement": "When the type of a field is changed within the groups the protobuf language guide calls compatible (int32/uint32/int64/uint64/bool/enum; sint32/sint64; fixed32/sfixed32; fixed64/sfixed64), a receiver with the new type reads from what a sender with the old type wrote exactly the bytes written and gets the sender's number, cast to its own type as in C++.", "quantifier": "all pairs of compatible scalar types, all values of the sender's type, all buffers", "why_tests_cant": "2^64 values for each of some forty pairs of types; the failing values depend on the pair", "anchors": ["src/WireFormatter.h: SerializeVarint, DeserializeInt, DeserializeUInt, DeserializeBool, DeserializeEnum", "src/Fields.h"]}
{"id": "C68", "title": "The order of messages in a .proto does not matter", "statement": "Reordering the messages of the .proto files, at the top of a file and inside messages at any depth, does not change the generated headers (nor whether generation fails), and the headers do not depend on the order in which Python happens to enumerate its dictionaries and sets.", "quantifier": "all requests with names as protoc guarantees them, all reorderings of their messages at all depths; all enumerations of the dependencies", "why_tests_cant": "the number of orders is factorial in the number of messages, at every depth; Python randomises the order of sets from run to run", "anchors": ["generator/EmbeddedProto/ProtoFile.py: toposort_add_msg, ProtoFile.__init__", "generator/EmbeddedProto/TypeDefinitions.py: sort_nested_msg_definitions", "generator/EmbeddedProto/main.py: generate_code"]}
{"id": "C69", "title": "Generated enums have the names and numbers of the .proto", "statement": "The header text the generator writes for an enum, at any depth of nesting, is read by a C++ compiler as an enum of that name with exactly the values of the .proto, each with its name and number, and is accepted; and the enum FieldNumber of a class has exactly the fields of the message with their numbers.", "quantifier": "all enums protoc accepts (names, 32-bit numbers, aliases), all nesting depths; all messages of legal requests", "why_tests_cant": "2^32 numbers per value and all names; the text has to be read by a compiler to see what it means (octal, signs, commas)", "anchors": ["generator/EmbeddedProto/templates/TypeDefEnum.h", "generator/EmbeddedProto/templates/TypeDefMsg.h: FieldNumber", "generator/EmbeddedProto/TypeDefinitions.py: EnumDefinition, MessageDefinition.field_ids"]}
{"id": "C70", "title": "The functions written into a generated class act on the field they are named for", "statement": "In every generated class, set_n(), clear_n(), add_n(), mutable_n(), has_n() and get_n() read and write the variable and the presence flag (or oneof selector) of field n and of no other field; clear(), operator=, the copy constructor, serialize() and deserialize() visit every field of the .proto once, with its own number and variable; so that a program that builds an object through these functions, serializes it and reads it into another object finds with the getters of the second what it put into the first. field_number_to_name() gives the names of the .proto, and to_string() uses them.", "quantifier": "all requests protoc accepts, all messages in them whose names do not clash, all capacities, all programs of calls on an object, all buffers", "why_tests_cant": "one class per message: tests compile a handful of .proto files, the text of the functions depends on names, kinds, numbers and order of all fields", "anchors": ["generator/EmbeddedProto/templates/TypeDefMsg.h", "generator/EmbeddedProto/templates/TypeOneof.h", "generator/EmbeddedProto/templates/*_GetSet.h", "generator/EmbeddedProto/templates/*_Serialize.h", "generator/EmbeddedProto/templates/*_Deserialize.h", "generator/EmbeddedProto/TypeDefinitions.py: MessageDefinition", "generator/EmbeddedProto/Oneof.py: Oneof"]}
{"id": "C71", "title": "Decoding takes time proportional to the number of bytes received", "statement": "Whatever bytes are received, deserialize() makes a number of calls to the read buffer (pop, advance) that is at most twice the number of bytes in it plus one, regardless of the nesting, the announced lengths and the number of fields.", "quantifier": "all message types, valid objects, byte strings, read buffers that never move backwards; for ReadBufferFixedSize the byte strings in which no length makes the read index wrap", "why_tests_cant": "a bound on running time over all inputs; the worst inputs are malformed ones (messages cut short inside messages) that no test lists", "anchors": ["generator/EmbeddedProto/templates/TypeDefMsg.h: deserialize", "src/MessageInterface.cpp: skip_unknown_field, skip_length_delimited, deserialize_check_type", "src/ReadBufferSection.h: ReadBufferSection", "src/RepeatedField.h: deserialize_packed, deserialize_unpacked", "src/WireFormatter.h: DeserializeVarint"]}
{"id": "C72", "title": "Serializing takes time proportional to the number of bytes written", "statement": "The number of push() calls serialize() makes, on the buffer it is given and on the size calculators it creates, is at most a constant times the number of bytes of the encoding.", "quantifier": "all message types, valid objects whose encoding is shorter than 2^32 bytes, all write buffers", "why_tests_cant": "the growth shows only with nesting deeper than in any test; every single result is correct", "anchors": ["src/MessageInterface.cpp: serialize_with_id", "src/RepeatedField.h: serialize_with_id, serialize_unpacked, serialized_size_packed, serialized_size_unpacked", "src/Fields.cpp: serialized_size", "src/MessageSizeCalculator.h: MessageSizeCalculator"]}
{"id": "C73", "title": "A refused record adds no element to a repeated field", "statement": "When deserialize() returns an error because of a record of a repeated field, the list getter shows the elements it showed before that record, and perhaps complete values from the record; it shows no element that the input does not contain in full.", "quantifier": "all message types with a repeated field, all objects, all reasons to refuse the record", "why_tests_cant": "the tests check the error code and not the list after it; what the extra element shows depends on what was in the array before", "anchors": ["src/RepeatedField.h: deserialize_check_type, deserialize_packed, deserialize_unpacked", "src/RepeatedFieldFixedSize.h: get", "src/FieldStringBytes.h: deserialize", "src/MessageInterface.cpp: deserialize_check_type"]}
{"id": "C74", "title": "A message knows its buffer only by its answers", "statement": "Two write buffers that give the same answers to push(byte), push(bytes, length) and get_available_size() get the same result from serialize(); two read buffers that give the same answers to pop(byte), advance(N) and get_size() get the same result and the same decoded object from deserialize(). No other function of the buffer interfaces is used, so a user's own buffer class can stand in for another one.", "quantifier": "all pairs of buffers of any classes, whatever their states and however they behave, all message types, all objects", "why_tests_cant": "a test uses the two or three buffer classes it has; the claim is about every class a user may write", "anchors": ["src/WriteBufferInterface.h: WriteBufferInterface", "src/ReadBufferInterface.h: ReadBufferInterface", "generator/EmbeddedProto/templates/TypeDefMsg.h: serialize, deserialize", "src/ReadBufferSection.cpp: ReadBufferSection"]}
{"id": "C75", "title": "The largest message of a type can be read off the .proto", "statement": "Let M be the size computed from the .proto alone: every field present, every list, string and bytes field full, every number as long as its type allows, of every oneof the longest member. No object of the class has a serialized_size() above M, and serialize() to a buffer with M+1 bytes left (M, if the type has no string and bytes fields) never reports BUFFER_FULL. M is exact: some input makes a new object have that size.", "quantifier": "all message types whose M is below 4 GiB, all objects, all fixed-size write buffers in all states", "why_tests_cant": "embedded programs choose buffer sizes once, for the worst case; the worst case depends on combinations of all fields, nested lengths and oneofs, which no test set covers", "anchors": ["src/Fields.cpp: serialized_size", "generator/EmbeddedProto/templates/TypeDefMsg.h: serialize", "src/WriteBufferFixedSize.h: push", "src/RepeatedFieldFixedSize.h"]}
{"id": "C76", "title": "The stack needed does not depend on the data", "statement": "However deeply the received bytes are nested and whatever an object holds, deserialize() and serialize() never have more calls of a message's deserialize() or serialize() active at the same time than the message type is deep in the .proto file; for deserialize() every type has messages that need that many.", "quantifier": "all message types (also recursive ones), objects, byte strings, behaviours of the buffer and numbers of active calls allowed", "why_tests_cant": "A test measures the stack for the inputs it has; an attacker chooses the nesting.", "anchors": ["generator/EmbeddedProto/templates/TypeDefMsg.h:159-236 serialize, deserialize", "src/MessageInterface.cpp:38-90 serialize_with_id, deserialize_check_type", "src/RepeatedField.h:317-396 serialize_unpacked, deserialize_unpacked", "generator/EmbeddedProto/Field.py:555-571 recursive fields"]}
{"id": "C77", "title": "A field object can be written and read on its own", "statement": "serialize() called on a single field object writes serialized_size() bytes that deserialize() of the same class reads back to the same value; serialize_with_id() writes the record(s) that a message consisting of only that field writes.", "quantifier": "all field classes, values, field numbers, conforming read and write buffers", "why_tests_cant": "The project's tests call these functions for a few numbers; the claim is about every class and value.", "anchors": ["src/Fields.h:136-166 FieldTemplate serialize_with_id, serialize, deserialize", "src/Fields.cpp:35-42 Field::serialized_size", "src/FieldStringBytes.h:175-248", "src/RepeatedField.h:148-201"]}
{"id": "C78", "title": "The serialized bytes say which message it was", "statement": "Two objects of the same class serialize to the same bytes exactly if all their getters (values, has_ flags, lengths, which-oneof) agree, where 0.0 and -0.0 in a plain float field count as equal. So the bytes do not depend on what the objects went through before (old content of strings, list slots and oneof members), and messages that differ never have the same bytes.", "quantifier": "all message types, all pairs of histories of calls, all write buffers with enough room", "why_tests_cant": "Pairs of unbounded histories; objects that show the same values can differ in memory in many ways, and two values whose bytes happen to coincide would hardly be hit by chance.", "anchors": ["generator/EmbeddedProto/templates/TypeDefMsg.h: serialize", "src/FieldStringBytes.h: serialize", "src/RepeatedField.h: serialize_with_id", "generator/EmbeddedProto/templates/TypeOneof.h"]}
{"id": "C79", "title": "The order of the fields in the input does not matter", "statement": "If deserialize() is given the fields of a message in another order than some correct encoding has them (also inside nested messages, at any depth), it accepts both, and all getters show the same afterwards. Only records of the same field, and records of members of the same oneof, have to stay in order among themselves; fields of different kinds may be interleaved, repeated fields may be split, and unknown fields may stand anywhere.", "quantifier": "all message types, all well-formed inputs (including non-minimal varints, repeated and unknown fields), all reorderings at all depths, all starting objects without leftovers in list slots, all read buffers that fulfil the interface", "why_tests_cant": "The number of orders grows as the factorial of the number of records; tests try the order the serializer produces.", "anchors": ["generator/EmbeddedProto/templates/TypeDefMsg.h: deserialize", "generator/EmbeddedProto/templates/TypeOneof.h", "src/MessageInterface.h"]}
{"id": "C80", "title": "Single elements of strings, bytes fields and lists", "statement": "get_const(index, value) returns exactly the element at that index of what the field shows, and INDEX_OUT_OF_BOUND from get_length() on; get_const(index) returns the same element below get_length() and never leaves the array. Writing an element behind the end makes the field grow, and the elements in between are default elements.", "quantifier": "all capacities, contents and indexes (up to UINT32_MAX), all element types, all histories of calls", "why_tests_cant": "The elements that appear in a gap depend on everything the field held before; a test on a new object finds zeros.", "anchors": ["src/FieldStringBytes.h: get, get_const, set, clear", "src/RepeatedFieldFixedSize.h: get, get_const, set, set_data, add, clear"]}
{"id": "C81", "title": "Several messages in one buffer, each with its length in front", "statement": "A program that writes serialized_size() as a varint in front of each message, and reads each message from a ReadBufferSection of that length and then skips what is left of the section, gets every message back. A message that is refused harms only its own object: the messages behind it are read as if it had been a good one, and the read position is exactly behind the last message. A stream that ends inside a message is reported as an error.", "quantifier": "all lists of messages of any types, all read and write buffers that keep their contract, all sizes of the buffer, all bytes inside the messages (also malformed), all legal forms of the lengths", "why_tests_cant": "The reader must stay aligned for every payload that makes deserialize() give up at any place, at any nesting depth; tests try a few.", "anchors": ["src/Fields.cpp: serialized_size", "src/WireFormatter.h: SerializeVarint, DeserializeVarint", "src/ReadBufferSection.cpp: ReadBufferSection, advance, get_size", "generator/EmbeddedProto/templates/TypeDefMsg.h: serialize, deserialize"]}
{"id": "C82", "title": "A program with an older version of the message in between", "statement": "A message passes from a sender through a program that reads it and serializes it again to a receiver; the three may have different versions of the .proto file. Fields that the program in between does not know reach the receiver unchanged, as proto3 promises since version 3.5. Fields that it knows reach the receiver as if they had been sent directly.", "quantifier": "all three message types (fields added, removed, moved, in oneofs, with other lengths), all objects of the sender, all nesting depths, all buffers that keep their contract", "why_tests_cant": "Needs every combination of three versions and every value; a test tries one relay with one message.", "anchors": ["src/MessageInterface.h: deserialize, serialize", "src/MessageInterface.cpp: skip_unknown_field", "generator/EmbeddedProto/templates/TypeDefMsg.h: serialize, deserialize"]}
{"id": "C83", "title": "References that are kept", "statement": "A reference obtained from mutable_f(), mutable_f(i), operator[] or mutable_m() of a oneof member can be kept while other calls are made on the object: later it still refers to that part, reading it gives what the getters show there, and a call through it has the effect of the same call through the accessors.", "quantifier": "all classes, all objects reached by any legal history of calls, all places (fields, list elements and oneof members at any depth), all sequences of calls in between, all calls through the reference", "why_tests_cant": "Needs every history before and after the reference is taken and every nesting of lists, optional fields and oneofs; a test keeps one reference across a few calls, and the undefined accesses usually seem to work.", "anchors": ["generator/EmbeddedProto/templates/FieldMsg_GetSet.h: mutable_", "generator/EmbeddedProto/templates/FieldString_GetSet.h: mutable_", "generator/EmbeddedProto/templates/FieldBasic_GetSet.h: mutable_", "generator/EmbeddedProto/templates/FieldRepeated_GetSet.h: mutable_", "generator/EmbeddedProto/templates/TypeOneof.h: init_, clear_", "src/RepeatedFieldFixedSize.h: get, operator[], clear"]}
{"id": "C84", "title": "A record changes only the field it names", "statement": "deserialize() of any bytes, well-formed or not and whether it succeeds or fails, changes no field or oneof whose tag does not occur in the bytes; a record changes only the field whose number its tag carries, and if that field is optional sets its presence flag even when the value turns out to be malformed or missing.", "quantifier": "all classes, all valid objects (also with stale content), all byte strings shorter than 2^32; for a single record also all buffers, including ones that break their contract", "why_tests_cant": "Ranges over all byte strings and all objects; a test shows a few malformed inputs, and a read index that wraps (as in the endless skip) or a payload read as tags makes it unclear which fields a hostile input can reach.", "anchors": ["generator/EmbeddedProto/templates/TypeDefMsg.h: deserialize", "generator/EmbeddedProto/templates/FieldBasic_Deserialize.h", "generator/EmbeddedProto/templates/TypeOneof.h: deserialize_", "src/WireFormatter.h: DeserializeTag", "src/ReadBufferFixedSize.h: pop, advance"]}
{"id": "C85", "title": "Receiving a message twice", "statement": "A well-formed message of a class without repeated fields that is received a second time into the object that has just received it succeeds and changes nothing. In a class with repeated fields at the top the second reception appends the same elements once more, provided they fit, and leaves all other fields, presence flags and oneofs as they were.", "quantifier": "all classes without repeated fields, or with repeated fields only at the top level; all valid clean objects; all well-formed messages, including ones with a field several times, several members of one oneof and unknown fields; any two buffers that keep their contract", "why_tests_cant": "Ranges over all messages, including those that set a nested message in several parts or switch a oneof back and forth, where the second reception starts from another state than the first; a test can retransmit a few messages only.", "anchors": ["generator/EmbeddedProto/templates/TypeDefMsg.h: deserialize", "generator/EmbeddedProto/templates/FieldBasic_Deserialize.h", "generator/EmbeddedProto/templates/TypeOneof.h: deserialize_, init_", "src/RepeatedFieldFixedSize.h: add"]}
{"id": "C86", "title": "Updating an object with what another one sends", "statement": "The bytes that an object serializes, deserialized into another object of the same class in any valid state, merge the sender's value into the receiver's like MergeFrom() of the protobuf libraries: plain fields with a non-default value and present optional fields are taken over, absent and default ones leave the receiver's field alone, lists are appended, nested messages merge field by field, a set oneof replaces the receiver's member or, if both show the same message member, merges into it. If a list becomes too long the receiver gets ARRAY_FULL.", "quantifier": "all classes; all pairs of valid objects of the class, with the receiver in any clean state; all buffers that keep their contract", "why_tests_cant": "Pairs of arbitrary states of a nested class; each combination of presence, emptiness, oneof member and list length at each depth behaves differently and tests see a few.", "anchors": ["generator/EmbeddedProto/templates/TypeDefMsg.h: serialize, deserialize", "generator/EmbeddedProto/templates/FieldBasic_Serialize.h", "generator/EmbeddedProto/templates/TypeOneof.h", "src/RepeatedFieldFixedSize.h"]}
{"id": "C87", "title": "Updates that are collected on the way", "statement": "Sending two updates one after the other to a receiver has the same effect as sending one update which an object in between has collected by deserializing the second into the first: same return value and, on success, the same values and presence, provided no oneof of the class has a member of a message type. With such a member the two ways may differ.", "quantifier": "all classes without message members in oneofs; all valid receivers and updates that can be serialized and collected; all buffers that keep their contract", "why_tests_cant": "Ranges over triples of arbitrary states of any class; the exception needs three particular messages in a row, which a test would not try.", "anchors": ["generator/EmbeddedProto/templates/TypeDefMsg.h: serialize, deserialize", "generator/EmbeddedProto/templates/TypeOneof.h: deserialize_, init_, clear_", "src/RepeatedFieldFixedSize.h: add"]}
{"id": "C88", "title": "Objects that talk to each other hold what the calls and messages say", "statement": "Several objects of one message class are used by programs that set and clear fields, add to lists, choose oneof members, assign one object to another, and send an object's serialized bytes to another object. After every such course of events each object shows exactly what follows from the calls made on it and from merging the messages it received, and every call and every deserialize() has returned the code that follows from the same rules: ARRAY_FULL when a value or a message does not fit, NO_ERRORS otherwise. An object that has received bytes from elsewhere, or a message too long for its lists, is unspecified until clear() is called on it; then it is as good as new. Courses of events without foreign bytes always run to their end.", "quantifier": "all message classes, all numbers of objects, all finite sequences of legal calls, assignments and messages in which no list of messages is made shorter other than by clearing it, no indexed write leaves a gap in a list, and messages are shorter than 2^31 bytes; all buffers that keep their contract", "why_tests_cant": "The states grow without bound with the sequence of events; a test follows one sequence.", "anchors": ["generator/EmbeddedProto/templates/TypeDefMsg.h", "generator/EmbeddedProto/templates/FieldBasic_GetSet.h", "generator/EmbeddedProto/templates/FieldMsg_GetSet.h", "generator/EmbeddedProto/templates/FieldRepeated_GetSet.h", "generator/EmbeddedProto/templates/TypeOneof.h", "src/RepeatedFieldFixedSize.h: add, set, set_data, clear", "src/FieldStringBytes.h: set, operator="]}
{"id": "C89", "title": "An object is updated by what a program with another version of the .proto file sends", "statement": "What an object serializes can be received by an object of a program compiled from another version of the .proto file, and the receiving object may already hold values. The sender's fields arrive one after the other, in the order in which they are sent: numbers the receiver does not know are skipped; a plain field takes the new value, an optional field becomes present, a message is updated field by field, and a list gets the new elements behind its own; a number that the receiver has in a oneof selects that member, so that of several such fields the last one sent stays. What the sender did not send stays as it was. If a string or a list becomes longer than the receiver allows, deserialize() returns ARRAY_FULL. For a new object and for one version this agrees with C65 and C86.", "quantifier": "all pairs of message types whose common numbers have the same type (string and bytes, and safe pairs of scalar types, count as the same), repeated in both or in neither, with no condition on oneofs; all values of the sender; all states of the receiver without values in unused list slots; all readers that keep their contract", "why_tests_cant": "A test fixes two versions, one value and one state of the receiver.", "anchors": ["generator/EmbeddedProto/templates/TypeDefMsg.h", "generator/EmbeddedProto/templates/FieldMsg_Deserialize.h", "generator/EmbeddedProto/templates/FieldBasic_Deserialize.h", "src/RepeatedFieldFixedSize.h: deserialize", "src/FieldStringBytes.h: deserialize_", "src/Fields.h: deserialize_check_type"]}
{"id": "C90", "title": "Larger lengths change nothing but what had no room", "statement": "If the lengths chosen for strings, bytes and repeated fields of a message class, at any depth, are made larger and nothing else is changed, then for objects that show the same values: deserialize() of any bytes returns the same result, leaves the same bytes unread and on success leads to the same values, unless the class with the smaller lengths returned ARRAY_FULL (so the larger class returns ARRAY_FULL only where the smaller one does); serialize() writes the same bytes with the same result into a buffer in any state, and serialized_size() is the same.", "quantifier": "all pairs of message types that differ in lengths only, all values, all byte strings, all conforming readers (for input that ends inside an unknown record: those that know where their bytes end), all write buffers that take no notice of bytes behind the announced length, including the library's own", "why_tests_cant": "A test fixes the lengths, the values and the bytes.", "anchors": ["src/FieldStringBytes.h", "src/RepeatedFieldFixedSize.h", "src/RepeatedField.h", "generator/EmbeddedProto/templates/TypeDefMsg.h"]}
{"id": "C91", "title": "The header of a .proto file does not depend on what else is generated", "statement": "The header that the generator writes for a .proto file is the same in every request that contains the file and what it imports, whatever other files are in the request, in whatever order the files are given and whatever the recursion limit of Python is. Whatever can be generated as part of a larger request can also be generated without the files that it does not use, with the same headers. (The generator writes headers for all files of a request, imports included, so that with incremental builds a header is written again by every file that imports it.)", "quantifier": "all pairs of legal requests (lists of files with any messages, nesting, enums, oneofs and fields), all subsets of files closed under imports", "why_tests_cant": "A test generates a few files in one way; the registration of template parameters goes through one table shared by all files of a request, so that a dependence would show up only for certain combinations of files.", "anchors": ["generator/EmbeddedProto/main.py:generate_code", "generator/EmbeddedProto/TypeDefinitions.py:register_template_parameters", "generator/EmbeddedProto/ProtoFile.py", "generator/EmbeddedProto/Field.py:register_template_parameters"]}
{"id": "C92", "title": "Updating .proto files and renaming things in them", "statement": "When the .proto files of one program are changed as the protobuf guide allows (messages, fields and packages renamed or moved to other files, fields added, removed or reordered, optional added or removed, scalar types exchanged where that is safe, string and bytes exchanged, fields moved out of oneofs, other lengths; at any depth), the class generated from the new files reads what the class generated from the old files wrote: its getters show what the getters of the old class show, field by field number, new fields are default and removed ones ignored, and ArrayFull is reported when a string or list does not fit. Names and lengths are not on the wire: where only they change, objects that show the same write the same bytes.", "quantifier": "all pairs of sets of .proto files protoc accepts and all correspondences of messages under which the change is allowed, all messages whose generated class has no clashing names (C61), all lengths, all valid objects, all read buffers", "why_tests_cant": "Unit tests generate code from one version of a few files; compatibility is about every pair of versions at every nesting depth, and about the generated functions, not about a fixed message.", "anchors": ["generator/EmbeddedProto/templates/TypeDefMsg.h:serialize", "generator/EmbeddedProto/templates/TypeDefMsg.h:deserialize", "generator/EmbeddedProto/Field.py", "generator/EmbeddedProto/TypeDefinitions.py:MessageDefinition", "src/MessageInterface.cpp"]}
{"id": "C93", "title": "Programs with different versions of the .proto files keep each other up to date", "statement": "Several programs hold objects; each program was compiled with the classes generated from its own version of the .proto files, with its own names and lengths. The programs call the generated functions (set_n, add_n, mutable_n, clear_n, clear), assign objects of one class to each other, and send objects to each other, in any order and in both directions. After every such course of events the getters of every object show exactly what follows from the calls made on it and the messages it received, each message updating it field by field number (unknown numbers ignored, lists extended, oneofs switched, what was not sent kept), and every deserialize() has returned NO_ERRORS, or ARRAY_FULL if a string or list had no room. After ARRAY_FULL the object is unspecified until clear() is called on it; then it is as good as new. Such courses of events always run to their end.", "quantifier": "all finite sets of objects, each of any class the generator writes (names not clashing, C61) from any .proto files protoc accepts and any lengths; all pairs of sender and receiver whose messages have types that go together for common field numbers, with no condition on oneofs and none on names; all finite sequences of calls, assignments and messages in which no list of messages is made shorter other than by clearing it (C35), no indexed write leaves a gap, and messages are shorter than 2^31 bytes; all read buffers that keep their contract", "why_tests_cant": "The state of each object depends on the whole history of calls and messages of all the others, over unboundedly many steps, classes and versions; unit tests exchange one message between objects of one class.", "anchors": ["generator/EmbeddedProto/templates/TypeDefMsg.h:serialize", "generator/EmbeddedProto/templates/TypeDefMsg.h:deserialize", "generator/EmbeddedProto/templates/TypeDefMsg.h:clear", "generator/EmbeddedProto/templates/TypeDefMsg.h:operator=", "generator/EmbeddedProto/templates/FieldRepeated_GetSet.h", "generator/EmbeddedProto/templates/FieldBasic_GetSet.h", "src/MessageInterface.cpp"]}
{"id": "C94", "title": "protoc writes one header for each .proto file, or reports an error", "statement": "Calling protoc with the plugin either writes exactly one header for each .proto file it passes (besides the library's own file of options, and descriptor.proto unless a file imports it), named after the file, with the classes of that file, or reports an error and writes nothing. The plugin declares that it knows proto3 optional fields, so that protoc does not refuse files that have them. Files that are not proto3 are refused (README: proto2 is not supported).", "quantifier": "all requests of protoc (any files, names, imports, definitions and versions of the language), all recursion limits of Python", "why_tests_cant": "Unbounded requests; an exception can come at any file after others have been rendered, and which header a file gets depends on the names of all files.", "anchors": ["generator/EmbeddedProto/main.py:main_plugin", "generator/EmbeddedProto/main.py:generate_code", "generator/EmbeddedProto/ProtoFile.py:ProtoFile.__init__", "README.md"]}
{"id": "C95", "title": "An object that was received needs no more room than the bytes received", "statement": "When deserialize() succeeds, the serialized size of the object has grown by no more than the number of bytes received; an object that was freshly constructed or cleared needs at most as many bytes as were received. So a buffer one byte larger than the received message (one byte because of C17) is always enough to send the object on, whatever the message contained.", "quantifier": "all message types, all objects before (fresh or with content), all byte sequences on which deserialize() succeeds, all read buffers, all fixed write buffers with enough room", "why_tests_cant": "All byte sequences, nestings and contents before: every longer-than-necessary tag, length and varint, truncated nested messages, merged messages and lists that a length prefix grows for.", "anchors": ["generator/EmbeddedProto/templates/TypeDefMsg.h: deserialize", "src/MessageInterface.cpp: serialize_with_id", "src/WireFormatter.h: SerializeVarint", "src/ReadBufferFixedSize.h: advance", "src/Fields.h: serialized_size"]}
{"id": "C96", "title": "Calls on different parts of an object can be made in any order", "statement": "Two calls that are about different parts of an object (different fields or oneofs of a message, different elements of a list, different bytes of a string or bytes field, at any depth of nesting) can trade places: each returns the same error code, and the object is exactly the same afterwards, including the data that getters do not show. deserialize() of any bytes, well-formed or not, is about the fields and oneofs whose tags occur in the bytes. So a sequence of setters can be sorted by field, and a message that is received does not get in the way of calls on fields that it does not mention.", "quantifier": "all classes, all objects that calls can make, all pairs of calls on different parts (receiving any bytes included), all sequences of calls and all rearrangements of them", "why_tests_cant": "All pairs of calls at all depths, all received bytes, all histories before them and all interleavings; presence flags of different fields share a word, lists grow by whichever index comes first, and a oneof member is created by whichever call comes first.", "anchors": ["generator/EmbeddedProto/templates/FieldBasic_GetSet.h: set_, mutable_, clear_", "generator/EmbeddedProto/templates/FieldMsg_GetSet.h: mutable_", "generator/EmbeddedProto/templates/TypeOneof.h: init_, clear_", "generator/EmbeddedProto/templates/TypeDefMsg.h: presence", "src/RepeatedFieldFixedSize.h: get, set", "src/FieldStringBytes.h: get"]}
{"id": "C97", "title": "The lengths and sizes that lists, strings and bytes report", "statement": "After any sequence of calls, get_length() of a list, string or bytes field is the number of elements or characters that the getters show, get_max_length() is the capacity of the declaration and never smaller; get_size() and get_max_size() of a list are these numbers times the size of an element in memory, so that add() has room exactly while get_size() is not get_max_size(), and every element added makes get_size() one element larger.", "quantifier": "all element types and capacities, all element sizes, all sequences of calls (decoding arbitrary bytes among them)", "why_tests_cant": "All histories and all sizes that compilers give to elements; the products are computed in 32 bits and only overflow for large arrays that no test allocates.", "anchors": ["src/RepeatedFieldFixedSize.h: BYTES_PER_ELEMENT, get_length, get_max_length, get_size, get_max_size", "src/FieldStringBytes.h: get_length, get_max_length"]}
