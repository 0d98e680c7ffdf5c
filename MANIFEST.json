{
 "claims": [
  {
   "property": "C01",
   "status": "proved",
   "theorems": [
    "C01_varint_round_trip"
   ],
   "note": "All widths, all values, any write/read buffer meeting the contracts."
  },
  {
   "property": "C02",
   "status": "proved",
   "theorems": [
    "C02_varint_canonical",
    "C02_canonical_unique"
   ],
   "note": "Canonical form and its uniqueness."
  },
  {
   "property": "C03",
   "status": "proved",
   "theorems": [
    "C03_varint_reader_total"
   ],
   "note": "Every byte sequence: value, OVERLONG_VARINT or END_OF_BUFFER, with the exact number of bytes consumed."
  },
  {
   "property": "C04",
   "status": "proved",
   "theorems": [
    "C04_zigzag"
   ],
   "note": "ZigZag code equals the mathematical zigzag and is a bijection, 32 and 64 bit."
  },
  {
   "property": "C05",
   "status": "proved",
   "theorems": [
    "C05_fixed_round_trip"
   ],
   "note": "Fixed32/Fixed64 little endian round trip."
  },
  {
   "property": "C06",
   "status": "proved",
   "theorems": [
    "C06_tag_round_trip",
    "C06_tag_reader_rejects"
   ],
   "note": "All field numbers 1..2^29-1 and wire types; undefined wire types are rejected."
  },
  {
   "property": "C07",
   "status": "proved",
   "theorems": [
    "C07_int32_both_conventions"
   ],
   "note": "Both the 5-byte and the 10-byte encoding of negative int32 are read."
  },
  {
   "property": "C08",
   "status": "proved",
   "theorems": [
    "C08_scalar_round_trip"
   ],
   "note": "All 14 scalar classes, all representable values."
  },
  {
   "property": "C09",
   "status": "partial",
   "theorems": [
    "C09_bool_any_varint_refuted",
    "C09_longer_refuted",
    "C09_bool_one_byte_partial"
   ],
   "note": "False of the code: the bool reader takes exactly one byte, so a two-byte varint for true/false desynchronises. _refuted gives the counterexample, _partial proves one-byte varints. C09_longer_refuted: no varint of two or more bytes is consumed, for every reader."
  },
  {
   "property": "C10",
   "status": "partial",
   "theorems": [
    "C10_write_log_partial",
    "C10_room_partial",
    "C10_calculator",
    "C10_refused_unchanged",
    "C10_write_log_refuted"
   ],
   "note": "Holds for legal call histories without 32-bit wrap of the bulk length; _refuted shows the wrap."
  },
  {
   "property": "C11",
   "status": "partial",
   "theorems": [
    "C11_bulk_push_fits_refuted",
    "C11_bulk_push_partial",
    "C11_any_length_refuted",
    "C11_exact_room_refuted"
   ],
   "note": "False of the code: bulk push refuses to fill the last byte (off by one) and accepts lengths that wrap. _partial gives the exact condition. C11_any_length_refuted gives the outcome for every uint32_t length in every state (stored, refused, or memory outside the buffer written); C11_exact_room_refuted: what fits exactly is always refused."
  },
  {
   "property": "C12",
   "status": "proved",
   "theorems": [
    "C12_read_fifo",
    "C12_sizes"
   ],
   "note": "Refines a FIFO queue for every call history."
  },
  {
   "property": "C13",
   "status": "partial",
   "theorems": [
    "C13_advance_refuted",
    "C13_advance_partial",
    "C13_any_argument_refuted"
   ],
   "note": "False of the code: advance(N) wraps; _partial covers N up to the unread bytes. C13_any_argument_refuted gives the outcome of every history with every uint32_t argument: when the consumed bytes and N reach 2^32 together the buffer moves backwards."
  },
  {
   "property": "C14",
   "status": "partial",
   "theorems": [
    "C14_section_window_partial",
    "C14_sizes",
    "C14_section_is_reader",
    "C14_overadvance_refuted",
    "C14_overadvance_law_refuted"
   ],
   "note": "Window semantics for every call history on a section within the parent's data; over-advance in a truncated window refuted. C14_overadvance_law_refuted: the failure, for every fixed-size buffer from which bytes were consumed."
  },
  {
   "property": "C15",
   "status": "partial",
   "theorems": [
    "C15_section_advance_refuted",
    "C15_section_advance_zero_refuted",
    "C15_section_advance_partial",
    "C15_any_argument_partial",
    "C15_beyond_refuted",
    "C15_zero_refuted"
   ],
   "note": "False of the code: advance(N) of a section reports the opposite in some cases; _partial states what holds. C15_any_argument_partial, C15_beyond_refuted and C15_zero_refuted give the outcome of every advance(N) of every section over every conforming parent."
  },
  {
   "property": "C16",
   "status": "proved",
   "theorems": [
    "C16_serialized_size"
   ],
   "note": "All message types and valid objects, any writer."
  },
  {
   "property": "C17",
   "status": "partial",
   "theorems": [
    "C17_exact_space_iff",
    "C17_exact_space_refuted",
    "C17_exact_space_partial"
   ],
   "note": "False of the code: a message whose encoding ends in a string or bytes payload needs one spare byte. C17_exact_space_iff says exactly when serialize() succeeds, for every object and every amount of free space."
  },
  {
   "property": "C18",
   "status": "proved",
   "theorems": [
    "C18_fixed_buffer",
    "C18_prefix_or_all"
   ],
   "note": "All message types, any writer."
  },
  {
   "property": "C19",
   "status": "proved",
   "theorems": [
    "C19_wire_format"
   ],
   "note": "All message types; enc in Spec.v is the proto3 encoding."
  },
  {
   "property": "C20",
   "status": "proved",
   "theorems": [
    "C20_round_trip",
    "C20_fixed_buffers"
   ],
   "note": "All message types and objects. Equality of all getters; for a -0.0 in a plain float field up to the sign (see C21)."
  },
  {
   "property": "C21",
   "status": "partial",
   "theorems": [
    "C21_negative_zero_refuted",
    "C21_negative_zero_partial",
    "C21_always_lost_refuted"
   ],
   "note": "False for every object with -0.0 in a plain float/double field at any depth (it is not written; C21_always_lost_refuted); _partial proves every type without plain float fields."
  },
  {
   "property": "C22",
   "status": "proved",
   "theorems": [
    "C22_merge",
    "C22_fixed_buffer",
    "C22_careful"
   ],
   "note": "All types, all well-formed record sequences (mdec, Spec.v), any reader. C22_merge is for clean objects; C22_careful for every object reached by legal calls that shorten no list of messages except by clearing it (SpecHistory.v), decodes that fail included; for the rest see C35. Accepted varint widths are those of the reader, see C51."
  },
  {
   "property": "C23",
   "status": "proved",
   "theorems": [
    "C23_concatenation"
   ],
   "note": "All types, any two well-formed encodings."
  },
  {
   "property": "C24",
   "status": "proved",
   "theorems": [
    "C24_unknown_fields",
    "C24_fixed_buffer"
   ],
   "note": "Any number of unknown varint/32-bit/64-bit/length-delimited records at all positions."
  },
  {
   "property": "C25",
   "status": "partial",
   "theorems": [
    "C25_group_refuted",
    "C25_group_partial"
   ],
   "note": "False of the code: only the tags of an unknown group are skipped, its content is decoded as if outside (proved for every content). Proved: groups with only unknown numbers inside, any nesting, change nothing."
  },
  {
   "property": "C26",
   "status": "partial",
   "theorems": [
    "C26_truncated_unknown_refuted",
    "C26_other_wiretypes_partial",
    "C26_nested_partial"
   ],
   "note": "False of the code for ReadBufferFixedSize: the payload of a truncated unknown field is read as fields of the message (proved for every payload, lengths that do not wrap the index; wrapping: C28). Proved: other wire types and a cut length are reported; inside a complete nested message the payload is not interpreted (but not reported)."
  },
  {
   "property": "C27",
   "status": "proved",
   "theorems": [
    "C27_reachable",
    "C27_decode_safe",
    "C27_decode_safe_fixed"
   ],
   "note": "Generic over safe read buffers and for the fixed-size buffer. Validity of every object reachable through the API: C27_reachable (PropertiesApi.v)."
  },
  {
   "property": "C28",
   "status": "partial",
   "theorems": [
    "C28_termination_refuted",
    "C28_termination_partial",
    "C28_termination_fixed_partial",
    "C28_termination_section_partial"
   ],
   "note": "False for ReadBufferFixedSize: for every message type there is a 6-10 byte input on which deserialize() never returns (length of an unknown field wraps the read index to 0). Proved: termination for buffers that never move backwards, for the fixed buffer when no length wraps, and for nested messages (sections)."
  },
  {
   "property": "C29",
   "status": "partial",
   "theorems": [
    "C29_tag_refuted",
    "C29_nested_refuted",
    "C29_packed_refuted",
    "C29_prefix_partial",
    "C29_serialized_partial",
    "C29_flat_partial"
   ],
   "note": "False of the code at three places (inside a tag, a nested message, a packed field), each proved for all inputs. Proved: at every other place of every valid encoding END_OF_BUFFER is returned; beginnings ending inside an unknown length-delimited record excluded (C26)."
  },
  {
   "property": "C30",
   "status": "proved",
   "theorems": [
    "C30_length",
    "C30_set",
    "C30_calls",
    "C30_assign_other_capacity"
   ],
   "note": "All capacities and histories of legal calls on the field; fields inside messages: C27_reachable. Decoding into the field: C33. Assignment between capacities drops the error: a value that does not fit is silently not copied (C30_assign_other_capacity)."
  },
  {
   "property": "C31",
   "status": "partial",
   "theorems": [
    "C31_cstring_refuted",
    "C31_cstring_set_partial",
    "C31_cstring_clear_partial",
    "C31_cstring_decode_partial",
    "C31_exactly_partial",
    "C31_full_refuted",
    "C31_shorter_refuted",
    "C31_set_new_partial"
   ],
   "note": "False of the code: set(ptr,len) with fewer characters leaves the tail of the old value visible, and a full-length string is not terminated (both for all values). Proved: the exact condition (a 0 behind the content), and agreement right after set(const char*), clear(), decode and set(ptr,len) on a new or cleared field, for strings shorter than the capacity."
  },
  {
   "property": "C32",
   "status": "proved",
   "theorems": [
    "C32_set_cstring",
    "C32_null"
   ],
   "note": "Memory behind the pointer is a list whose end may not be passed, so over-reads would be UB."
  },
  {
   "property": "C33",
   "status": "proved",
   "theorems": [
    "C33_oneof_exact",
    "C33_oneof_refused",
    "C33_element_exact",
    "C33_exact",
    "C33_too_long",
    "C33_cut"
   ],
   "note": "All capacities, lengths, payloads; plain and optional fields, oneof members (a refused one leaves the oneof unset, C38) and elements of repeated fields (a refused one: C73)."
  },
  {
   "property": "C34",
   "status": "proved",
   "theorems": [
    "C34_history",
    "C34_call",
    "C34_get",
    "C34_copy",
    "C34_copy_smaller"
   ],
   "note": "All element types, capacities and histories. Elements skipped by an indexed write behind the end are unspecified (acall)."
  },
  {
   "property": "C35",
   "status": "partial",
   "theorems": [
    "C35_history_refuted",
    "C35_history_partial",
    "C35_careful_partial",
    "C35_no_copying_partial",
    "C35_leftover_refuted"
   ],
   "note": "False of the code: slots behind get_length() keep old content after set_data()/assignment, and decoding merges into them; C35_leftover_refuted shows it for every class with a repeated message field. Proved for objects without such left-overs, and that every history of legal calls (decoding arbitrary bytes included) without a shortening set_data()/assignment leaves none."
  },
  {
   "property": "C36",
   "status": "proved",
   "theorems": [
    "C36_presence",
    "C36_presence_new",
    "C36_presence_decode",
    "C36_presence_kept"
   ],
   "note": "Any number of optional fields, any history. Decode: one record of the field sets its flag and no other (clean objects); any input from any buffer never resets a flag."
  },
  {
   "property": "C37",
   "status": "proved",
   "theorems": [
    "C37_at_most_one",
    "C37_most_recent",
    "C37_value",
    "C37_decode"
   ],
   "note": "Any history. Scalar oneof members have set_ only; decode: one record of the member, on clean objects."
  },
  {
   "property": "C38",
   "status": "proved",
   "theorems": [
    "C38_payload",
    "C38_wiretype",
    "C38_bounded",
    "C38_any_buffer"
   ],
   "note": "Every malformed payload of every member type, every previous state, and a wrong wire type. C38_any_buffer: for every buffer without any assumption about it, in terms of the switch of deserialize()."
  },
  {
   "property": "C39",
   "status": "proved",
   "theorems": [
    "C39_assign",
    "C39_copy_construct"
   ],
   "note": "All types, destination reached by any history, any valid source. Self-assignment and aliasing: C66."
  },
  {
   "property": "C40",
   "status": "proved",
   "theorems": [
    "C40_clear"
   ],
   "note": "All types, all valid objects, any writer."
  },
  {
   "property": "C41",
   "status": "partial",
   "theorems": [
    "C41_dropped_refuted",
    "C41_empty_refuted",
    "C41_partial"
   ],
   "note": "False of the code: only the tag is skipped, the body is read as fields of the message. Proved for bodies that consist of unknown records."
  },
  {
   "property": "C42",
   "status": "partial",
   "theorems": [
    "C42_unpacked_refuted",
    "C42_packed_partial"
   ],
   "note": "False of the code: unpacked records return INVALID_WIRETYPE (proved for all types and states). Packed records decode."
  },
  {
   "property": "C43",
   "status": "proved",
   "theorems": [
    "C43_wiretype",
    "C43_oneof",
    "C43_reserved"
   ],
   "note": "All fields, wrong wire types, previous records, and the non-existent wire types 6 and 7."
  },
  {
   "property": "C44",
   "status": "proved",
   "theorems": [
    "C44_zero"
   ],
   "note": "All wire types and previous records."
  },
  {
   "property": "C45",
   "status": "partial",
   "theorems": [
    "C45_refused_byte_refuted",
    "C45_varint_refuted",
    "C45_observes",
    "C45_refused_byte_partial"
   ],
   "note": "False for buffers that recover after refusing a byte (C45_varint_refuted: the exact rule, for every number, buffer and place); proved for all sticky buffers. C45_observes: recording the refusals does not change the outcome."
  },
  {
   "property": "C46",
   "status": "partial",
   "theorems": [
    "C46_cut_refuted",
    "C46_cut_partial",
    "C46_cut_repeated_partial",
    "C46_confined_partial",
    "C46_confined_repeated_partial",
    "C46_confined_refuted"
   ],
   "note": "Proved for complete payloads (any content). Refuted for payloads cut short by the end of the buffer: nested decoding succeeds with bytes left, for every cut nested message that ends in an unknown record running to its announced end (C46_cut_refuted). Payloads cut short by the end of the buffer: proved that decoding ends, takes a prefix of what is there, refuses strings and bytes and leaves nothing of packed numbers (C46_cut_partial, C46_cut_repeated_partial); only messages can be taken for complete with bytes left."
  },
  {
   "property": "C47",
   "status": "proved",
   "theorems": [
    "C47_reencode"
   ],
   "note": "All types, all well-formed encodings."
  },
  {
   "property": "C48",
   "status": "proved",
   "theorems": [
    "C48_raw_equals_field",
    "C48_enum_reader"
   ],
   "note": "All scalar types; the enum reader, which generated code does not call, on all byte strings."
  },
  {
   "property": "C49",
   "status": "partial",
   "theorems": [
    "C49_fits_partial",
    "C49_exact_partial",
    "C49_overrun_refuted",
    "C49_view_refuted",
    "C49_full_string_refuted"
   ],
   "note": "False of the code. C49_fits_partial: a view with room for the text and a terminator (exactly these characters are written); C49_exact_partial: a view as long as the text. C49_overrun_refuted: every view at least three characters shorter at the end of the array makes to_string write outside it; C49_view_refuted: one or two shorter, the view returned is outside; C49_full_string_refuted: a string filling its array is read beyond its end."
  },
  {
   "property": "C50",
   "status": "partial",
   "theorems": [
    "C50_declared_partial",
    "C50_repeated_refuted",
    "C50_enclosing_refuted",
    "C50_declared_exact",
    "C50_once_partial",
    "C50_once_refuted",
    "C50_parameters",
    "C50_once_exact",
    "C50_template",
    "C50_arguments"
   ],
   "note": "Declared: C50_declared_exact says exactly when (an equivalence). It fails for every repeated message field of given length whose element class is a template (C50_repeated_refuted) and for every single field with the type of an enclosing message that is a template (C50_enclosing_refuted); C50_declared_partial is the rest, also with field names that clash. Once: C50_once_exact says exactly when (an equivalence): when no two open lengths get the same name; C50_once_partial gives a condition on the field names, C50_once_refuted: every such pair of lengths is declared twice. C50_parameters (the parameters are the open lengths, one for each, as an inductive definition over the request, SpecParams.v), C50_template and C50_arguments hold in full. The generator is modelled in Generator.v (ProtoFile.py, TypeDefinitions.py, Field.py, Oneof.py, main.py)."
  },
  {
   "property": "C51",
   "status": "partial",
   "theorems": [
    "C51_oneof_refuted",
    "C51_packed_refuted",
    "C51_long_refuted",
    "C51_varint_partial"
   ],
   "note": "False of the code: uint32 and enum refuse varints of more than five bytes, in fields, oneofs and packed lists. Proved for all other integer types, and for up to five bytes."
  },
  {
   "property": "C52",
   "status": "partial",
   "theorems": [
    "C52_cut_unknown_refuted",
    "C52_kept_partial",
    "C52_bounded_partial"
   ],
   "note": "False over ReadBufferFixedSize for input that ends inside an unknown length-delimited record (C26): its payload may change many fields. Proved for all other byte strings and every buffer, and for all byte strings and buffers that know where their bytes end. Objects without hidden left-overs in repeated message slots (C35)."
  },
  {
   "property": "C53",
   "status": "partial",
   "theorems": [
    "C53_any_field_refuted",
    "C53_any_field_partial",
    "C53_negative_refuted",
    "C53_nonnegative_partial"
   ],
   "note": "False of the code: five bytes, the 32-bit pattern, for every negative int32 in any plain or optional field of any message. Decoders of other implementations that sign-extend from 32 bits accept this; byte-exact comparison does not. Other values proved."
  },
  {
   "property": "C54",
   "status": "partial",
   "theorems": [
    "C54_two_outcomes_refuted",
    "C54_every_input_partial",
    "C54_bounded_partial",
    "C54_same_outcome_partial",
    "C54_same_bounded_partial"
   ],
   "note": "False for input that ends inside an unknown length-delimited record: ReadBufferFixedSize and a buffer that knows where its bytes end decode it differently. Proved for all other byte strings and every two buffers, and for all byte strings and buffers that know where their bytes end. Objects without hidden left-overs (C35)."
  },
  {
   "property": "C55",
   "status": "partial",
   "theorems": [
    "C55_length_refuted",
    "C55_partial_element_refuted",
    "C55_too_many_partial",
    "C55_overlong_partial"
   ],
   "note": "False of the code: an unreadable length is taken for 0 and a cut-off last element is dropped silently. Proved: too many elements and overlong elements are reported."
  },
  {
   "property": "C56",
   "status": "partial",
   "theorems": [
    "C56_json_partial",
    "C56_comma_refuted",
    "C56_exact",
    "C56_escape_refuted",
    "C56_injection_refuted"
   ],
   "note": "C56_exact: after every history with enough room, terminated strings that read back, and plain field names, the text is JSON (full grammar) for the values the getters show if and only if no string needs escaping, floats print as numbers, and in every message the first slot is printed or none is. C56_json_partial: the part that holds. C56_escape_refuted: every message with a quote, backslash or control character in a string. C56_comma_refuted: whenever the first slot is empty and another is printed the text is not JSON at all. C56_injection_refuted: the text can be JSON for other values."
  },
  {
   "property": "C57",
   "status": "partial",
   "theorems": [
    "C57_order_partial",
    "C57_enclosing_refuted",
    "C57_order_exact",
    "C57_single_partial",
    "C57_longer_name_refuted",
    "C57_joined_name_refuted"
   ],
   "note": "For names the generator does not mix up (clear_names), C57_order_exact says exactly when (an equivalence): if the type is not an enclosing message; C57_order_partial is the same for enums too; for fields that are not repeated and have the type of a message that is not enclosing, for any names (C57_single_partial). Refuted: enclosing messages (for every request), a message whose name is the beginning of another one's (ProtoFile.py:52; C57_longer_name_refuted, for every request with such a pair of messages whose other names are plain), without a package a name that is two others written together (ProtoFile.py:122)."
  },
  {
   "property": "C58",
   "status": "partial",
   "theorems": [
    "C58_classes",
    "C58_members",
    "C58_names",
    "C58_shadowed_refuted",
    "C58_scopes_refuted",
    "C58_types_partial"
   ],
   "note": "Classes and members: proved in full. Names: exactly right unless shadowed (C58_names, an equivalence); every shadowed name gives a member of another type (C58_shadowed_refuted). Messages named through a template: C58_scopes_refuted, an equivalence whose right-hand side can fail. C58_types_partial: everything about the type of a member outside these cases and the ones of C50 and C57."
  },
  {
   "property": "C59",
   "status": "partial",
   "theorems": [
    "C59_accepts_partial",
    "C59_enclosing_partial",
    "C59_deep_refuted",
    "C59_longer_name_refuted",
    "C59_limit"
   ],
   "note": "C59_accepts_partial and C59_enclosing_partial are equivalences: what is accepted, for clear names; the second one without any condition on types around their own message (the lengths to be given must then be finitely many, otherwise the recursion never ends). Refuted: types nested twice or deeper in the message of the field are always rejected (C59_deep_refuted, universal); so are fields inside a message with the type of a message whose name continues that of the first (C59_longer_name_refuted, universal for otherwise plain names). Missing: an equivalence for names that are not clear."
  },
  {
   "property": "C60",
   "status": "partial",
   "theorems": [
    "C60_load_refuted",
    "C60_load_partial",
    "C60_load_keeps_position",
    "C60_inside",
    "C60_fill_push",
    "C60_fill_copy"
   ],
   "note": "False without a clear() in between: set_bytes_written() keeps the read position, so after reading k bytes the first k bytes of the next load are skipped (C60_load_refuted). Proved: every history in which nothing was read since the last clear() when bytes are loaded, the exact behaviour in all other histories, and memory safety for all arguments."
  },
  {
   "property": "C61",
   "status": "partial",
   "theorems": [
    "C61_names_partial",
    "C61_accessor_partial",
    "C61_get_refuted",
    "C61_case_refuted",
    "C61_underscore_refuted",
    "C61_keyword_refuted",
    "C61_hidden_refuted",
    "C61_optional_refuted",
    "C61_oneof_refuted",
    "C61_clear_refuted",
    "C61_clear_all_refuted"
   ],
   "note": "False for many names protoc accepts. Proved: messages whose names do not get in each other's way (clear_members) and whose fields with presence are not of their own type. Refuted, each for all messages with such fields: n and get_n; names equal up to case; n and n_; keywords and the name of the message; names that the functions of the class use for something else (uint32_t, snprintf, and uint64_t when there is such a field); optional or oneof fields of the message's own type; n and clear_n, or a field called clear (these compile but call the clearing function). Only names are modelled, not types of expressions."
  },
  {
   "property": "C62",
   "status": "partial",
   "theorems": [
    "C62_integers_partial",
    "C62_mixed_refuted",
    "C62_wrapped",
    "C62_mirrored",
    "C62_enum",
    "C62_floats",
    "C62_nan",
    "C62_all_floats",
    "C62_numbers_partial",
    "C62_rounding_refuted",
    "C62_order",
    "C62_nearest",
    "C62_nan_mixed"
   ],
   "note": "False in two cases. A negative value and an unsigned field at least as wide: it is compared as value + 2^width (C62_mixed_refuted; C62_wrapped states the outcome of all six operators exactly). An integer that is no number of the floating point type it is compared with: it equals the nearest one (C62_rounding_refuted for every such integer; C62_nearest, C62_order: what the operators do then). Proved for all other pairs of types, NaN, infinities and -0.0 included. Assumed: IEEE 754 formats, round to nearest even, no excess precision."
  },
  {
   "property": "C63",
   "status": "partial",
   "theorems": [
    "C63_includes_partial",
    "C63_guards_refuted",
    "C63_dashes_refuted",
    "C63_digit_refuted",
    "C63_options_refuted",
    "C63_descriptor_refuted",
    "C63_namesake_refuted"
   ],
   "note": "False for some names: two files whose names differ in case or in '/' against '_' only have the same include guard, so that one is left out silently (also p-x.proto and p-y.proto, whose guards are cut at the dash); a name starting with a digit gives a guard that is no macro name; no header is written for files whose names contain those of the options file or descriptor.proto; and an include finds a namesake relative to the folder of the including file first. Proved for all other sets of files, with the library's options file and descriptor.proto among them."
  },
  {
   "property": "C64",
   "status": "partial",
   "theorems": [
    "C64_schema_partial",
    "C64_legal_partial",
    "C64_wire_partial"
   ],
   "note": "Proved for the .proto files that avoid what C50, C57, C58 and C61 refute: shadowed names, templates around types, fixed-length repeated fields of templated messages, clashing parameter names, types of enclosing messages, recursive fields that are optional or in a oneof."
  },
  {
   "property": "C65",
   "status": "proved",
   "theorems": [
    "C65_versions"
   ],
   "note": "A field that gets presence (it becomes optional, or moves into a oneof) is present for the receiver if the sender's value is not the default. Fields may move into oneofs, out of them and between them, as long as the members of one oneof of the receiver that the sender knows are members of one oneof of the sender, or only one. A field does not become repeated or singular between the versions; string and bytes may be exchanged."
  },
  {
   "property": "C66",
   "status": "partial",
   "theorems": [
    "C66_oneof_refuted",
    "C66_copy_partial",
    "C66_set_data",
    "C66_separate",
    "C66_own_bytes_partial",
    "C66_overlap_refuted",
    "C66_own_cstring_refuted"
   ],
   "note": "False for two members of the same oneof: the setter destroys the active member before it reads its argument (C66_oneof_refuted), and for a string or bytes field set from a part of itself that overlaps its new place: memcpy and strncpy on overlapping memory (C66_overlap_refuted, C66_own_cstring_refuted, the exact rule). Everything else holds (C66_copy_partial, C66_own_bytes_partial, C66_set_data). Argument and target have the same class (strings may differ in capacity)."
  },
  {
   "property": "C67",
   "status": "partial",
   "theorems": [
    "C67_negative_refuted",
    "C67_large_refuted",
    "C67_bool_refuted",
    "C67_kept_partial"
   ],
   "note": "False for negative int32 read as int64 or uint64 (z + 2^32 is read), 64-bit numbers outside 0..2^35-1 read as uint32 or enum (OVERLONG_VARINT) and numbers outside 0..127 read as bool (one byte taken, the rest read as the next field); each proved for all such values. C67_kept_partial: everything else. Whole messages: the types of C65 may differ by the pairs that are safe for all values (always_kept)."
  },
  {
   "property": "C68",
   "status": "proved",
   "theorems": [
    "C68_reordered",
    "C68_runs"
   ],
   "note": "toposort_flatten is a third-party function, modelled from its documentation."
  },
  {
   "property": "C69",
   "status": "partial",
   "theorems": [
    "C69_text",
    "C69_accepted_partial",
    "C69_negative_refuted",
    "C69_field_number",
    "C69_field_number_accepted_partial"
   ],
   "note": "The text always denotes the values of the .proto (C69_text, C69_field_number, in full). Not always accepted: C69_accepted_partial says exactly when; C69_negative_refuted: never with a negative number, since the type is uint32_t."
  },
  {
   "property": "C70",
   "status": "partial",
   "theorems": [
    "C70_programs_partial",
    "C70_calls_partial",
    "C70_alone_field_partial",
    "C70_alone_oneof_partial",
    "C70_serialize_partial",
    "C70_deserialize_partial",
    "C70_shows_partial",
    "C70_wire_partial",
    "C70_copy_partial",
    "C70_assign_partial",
    "C70_to_string_partial",
    "C70_names_partial"
   ],
   "note": "Bodies rendered per class as statements over named variables, found by name and executed; equal to the operations of Api.v and the functions of Message.v and ToString.v, for all classes with clear names. Missing: classes in which names clash (C61 shows what happens there), which includes recursive fields with presence or in a oneof (do not compile, C61)."
  },
  {
   "property": "C71",
   "status": "partial",
   "theorems": [
    "C71_linear",
    "C71_linear_fixed_refuted",
    "C71_linear_fixed_partial",
    "C71_observes"
   ],
   "note": "The bound 2m+1 is proved for every read buffer that does not move backwards. For ReadBufferFixedSize it is false when a length wraps the read index: ten bytes suffice for an endless run (C71_linear_fixed_refuted, as in C28); proved when none does."
  },
  {
   "property": "C72",
   "status": "partial",
   "theorems": [
    "C72_linear_refuted",
    "C72_twice_refuted",
    "C72_four_times_refuted",
    "C72_count_partial",
    "C72_bound_partial",
    "C72_passes_partial"
   ],
   "note": "False: the size of a nested message is found by serializing it into a calculator, at every level again, so every level of nesting doubles the work, and a level of repeated messages quadruples it (18 bytes nested nine deep take 218452 calls). Proved instead: the exact number of calls for every object (work), and the bound 4^depth calls per byte, and a sharper one for the calls really made on any buffer, by how lists and messages are nested (1 for flat messages, 2 and 3 with lists of numbers and strings, times 2 or 4 per level of messages). So the claim holds for each fixed type with a factor that grows exponentially with its nesting."
  },
  {
   "property": "C73",
   "status": "partial",
   "theorems": [
    "C73_string_refuted",
    "C73_old_content_refuted",
    "C73_cut_refuted",
    "C73_message_refuted",
    "C73_full_partial",
    "C73_message_length_partial",
    "C73_wiretype_partial",
    "C73_packed_partial"
   ],
   "note": "False of the code: get(index) lengthens the list before the element is decoded. A string or bytes record with an unreadable or too large length adds an element showing what that place of the array held before (an element removed with set_data() is back); a cut string or a message with an error inside adds the part that was read. Proved to hold for a full list, a message with an unreadable length, a wrong wire type, and packed fields."
  },
  {
   "property": "C74",
   "status": "proved",
   "theorems": [
    "C74_serialize",
    "C74_deserialize"
   ],
   "note": "No contract is assumed of the buffers. Bytes offered to push() are 0..255 and arguments of advance(N) uint32_t values, so the buffers need agree on these only."
  },
  {
   "property": "C75",
   "status": "proved",
   "theorems": [
    "C75_enough",
    "C75_reached"
   ],
   "note": "The one spare byte is the off-by-one of the bulk push (C11, C17)."
  },
  {
   "property": "C76",
   "status": "proved",
   "theorems": [
    "C76_deserialize",
    "C76_serialize",
    "C76_needed",
    "C76_serialize_needed"
   ],
   "note": "Stack.v gives both functions a limit on the number of active calls; with the depth of the type as limit they are the same functions. Converse for both: deserialize() needs the depth of the type for some message, serialize() needs the depth of the object (C76_serialize_needed)."
  },
  {
   "property": "C77",
   "status": "partial",
   "theorems": [
    "C77_scalar_partial",
    "C77_record",
    "C77_string_refuted",
    "C77_list_refuted"
   ],
   "note": "False for strings and bytes (serialize() omits the length deserialize() expects) and for lists (serialize() always reports BUFFER_FULL, so serialized_size() is 0). Proved for scalars and for serialize_with_id(); for messages it is C16 and C20."
  },
  {
   "property": "C78",
   "status": "proved",
   "theorems": [
    "C78_histories",
    "C78_same_bytes"
   ],
   "note": "Holds in full, for buffers with enough room and encodings below 4 GiB."
  },
  {
   "property": "C79",
   "status": "proved",
   "theorems": [
    "C79_order"
   ],
   "note": "Holds in full for well-formed input (the specification's merge) and objects without leftovers from earlier repeated messages (C35)."
  },
  {
   "property": "C80",
   "status": "partial",
   "theorems": [
    "C80_read_bytes",
    "C80_read_list",
    "C80_gap_bytes_refuted",
    "C80_gap_list_refuted",
    "C80_grown_bytes_partial",
    "C80_grown_list_partial"
   ],
   "note": "Reading: full. Growing: false. Content replaced by something shorter comes back when a later element is written (C80_gap_bytes_refuted, C80_gap_list_refuted, for every old and new content). True for objects that were only grown since construction or clear() (C80_grown_*_partial)."
  },
  {
   "property": "C81",
   "status": "partial",
   "theorems": [
    "C81_write",
    "C81_read",
    "C81_round_trip",
    "C81_cut_refuted"
   ],
   "note": "Writing, reading and the round trip: full. The program itself (Stream.v) is client code, not part of the repository. The last clause is false: a stream cut at the end of any record inside a message is accepted as a complete message (C81_cut_refuted, for all messages and cuts), because ReadBufferSection shrinks to what the buffer has."
  },
  {
   "property": "C82",
   "status": "partial",
   "theorems": [
    "C82_unknown_lost_refuted",
    "C82_known_kept_partial",
    "C82_oneof_kept_partial",
    "C82_both_hops_partial"
   ],
   "note": "The first clause is false of the code for all types and objects: there is no store for unknown fields, so the receiver finds the default value, and no such member of a oneof is ever set (C82_unknown_lost_refuted). The second clause is proved for the fields that sender and relay declare alike outside oneofs, of any type, also nested messages and lists (C82_known_kept_partial), and for the oneofs that they declare alike (C82_oneof_kept_partial); for everything else C82_both_hops_partial gives the exact value the receiver sees."
  },
  {
   "property": "C83",
   "status": "partial",
   "theorems": [
    "C83_switched_refuted",
    "C83_hidden_refuted",
    "C83_shown_partial",
    "C83_kept_partial"
   ],
   "note": "False of the code in two cases, each proved for all objects and places. A reference into a oneof member that is no longer the active one refers to a destroyed object: any use is undefined, and this is the only way a use can be (C83_switched_refuted). After clear_f(), clear() or a shorter assignment the reference to an optional field or a list element still works, but the write is not shown and comes back as stale content at the next access (C83_hidden_refuted). As long as the getters show something at the place the claim holds (C83_shown_partial), and that is kept by all calls that do not clear, assign, replace or decode the part or anything around it nor switch a oneof around it (C83_kept_partial)."
  },
  {
   "property": "C84",
   "status": "proved",
   "theorems": [
    "C84_unmentioned",
    "C84_none_mentioned",
    "C84_one_record",
    "C84_flags"
   ],
   "note": "Proved for every input. A tag may occur anywhere in the bytes, also inside the payload of another record: that payloads can be read as tags is the subject of C25, C26, C41 and C46."
  },
  {
   "property": "C85",
   "status": "proved",
   "theorems": [
    "C85_twice",
    "C85_lists",
    "C85_parts"
   ],
   "note": "A class with a repeated field inside a nested message is not covered by C85_lists: there the second reception may append to the nested list. If the elements do not fit a second time the second reception fails (C34, C55_too_many). C85_parts: any class, lists inside messages included, when the second reception is well-formed too - the parts without lists are unchanged and every repeated field at the top gets the same elements again."
  },
  {
   "property": "C86",
   "status": "proved",
   "theorems": [
    "C86_merge",
    "C86_ends"
   ],
   "note": "The receiver is clean in the sense of C22 (unused slots of repeated messages hold default messages). In the ARRAY_FULL case the theorem says only that the object stays valid; what it shows then is C52 and C84."
  },
  {
   "property": "C87",
   "status": "proved",
   "theorems": [
    "C87_collected",
    "C87_members"
   ],
   "note": "The exception (C87_members) is the same in the protobuf libraries: a switch of the oneof in between is lost by collecting."
  },
  {
   "property": "C88",
   "status": "proved",
   "theorems": [
    "C88_conversation",
    "C88_goes_on"
   ],
   "note": "effect (SpecTalk.v) is an executable description of every call in terms of the getters' values; talk puts calls, copies and messages together. Proved by induction over the events with the invariant that objects are well-formed, tidy and leave nothing behind (wt, tidy, clean), from the theorems about single calls and C86."
  },
  {
   "property": "C89",
   "status": "proved",
   "theorems": [
    "C89_update",
    "C89_agrees"
   ],
   "note": "updated (SpecUpdate.v) lets the fields of the sender arrive one after the other. C89_agrees ties it to the specifications of C65 (carry) and C86 (merge)."
  },
  {
   "property": "C90",
   "status": "proved",
   "theorems": [
    "C90_decode",
    "C90_bounded",
    "C90_encode",
    "C90_buffers"
   ],
   "note": "Not for setters: assigning a string that is too long truncates it or is refused (C30, C32). On errors other than ARRAY_FULL the values may differ in one case only, an element that a repeated string refuses (see SpecRead.v)."
  },
  {
   "property": "C91",
   "status": "proved",
   "theorems": [
    "C91_header",
    "C91_fewer"
   ],
   "note": "About the declarations (namespaces, enums, classes, template parameters, members) that Generator.v models, as for C50 and C57-C59. Needs neither imports first nor the absence of fields with the type of an enclosing message."
  },
  {
   "property": "C92",
   "status": "proved",
   "theorems": [
    "C92_update",
    "C92_renamed"
   ],
   "note": "C65 is about types; this is about .proto files and the functions written into the generated classes (C70), which is why names matter at all. Objects are built with the generated functions (valid_object); values with negative zeros are read as C21 says (norm)."
  },
  {
   "property": "C93",
   "status": "proved",
   "theorems": [
    "C93_programs",
    "C93_go_on"
   ],
   "note": "Puts together C70 (generated functions), C88 (conversations), C89 (updates from other versions) and C92 (.proto files). Bytes that no object sent are not part of the events here; C88 has them for one class."
  },
  {
   "property": "C94",
   "status": "partial",
   "theorems": [
    "C94_headers_partial",
    "C94_says_proto2",
    "C94_proto2_refuted",
    "C94_extension_refuted"
   ],
   "note": "C94_headers_partial: names of the usual form; connects what protoc writes with the function that C50, C57-C59, C61, C64, C68-C70 and C91 are about. C94_says_proto2: a descriptor whose syntax is \"proto2\" is refused. C94_proto2_refuted: protoc leaves the syntax of proto2 files empty, so the check never applies and proto2 files get the headers of proto3 files (their optional and required fields lose their presence, their lists are read and written packed). C94_extension_refuted: for two files whose names differ in the extension only, nothing can be written. Files whose names contain those of the two special files: C63."
  },
  {
   "property": "C95",
   "status": "partial",
   "theorems": [
    "C95_received_room_refuted",
    "C95_received_room_partial",
    "C95_received_room_fresh_partial",
    "C95_received_room_encoding_partial"
   ],
   "note": "C95_received_room_refuted: with ReadBufferFixedSize an unknown record whose length wraps the read index (C28) takes it back to bytes already passed; they are stored a second time, and 10 bytes received give an object of 12. C95_received_room_partial: all bytes with buffers that know their end (sections, or any user buffer that does), all buffers when the input does not end in the middle of an unknown record. C95_received_room_fresh_partial: the same for fresh objects. C95_received_room_encoding_partial: every encoding, every buffer. Missing: ReadBufferFixedSize with an input that ends in the middle of an unknown record and whose length does not wrap."
  },
  {
   "property": "C96",
   "status": "proved",
   "theorems": [
    "C96_two_calls",
    "C96_histories",
    "C96_by_part"
   ],
   "note": "Exact equality of the objects. The relation independent and the rearrangements are in SpecCalls.v. Calls on two members of one oneof, and add() on the same list, are about the same part (C96_members_matter)."
  },
  {
   "property": "C97",
   "status": "partial",
   "theorems": [
    "C97_list_partial",
    "C97_room_partial",
    "C97_large_refuted",
    "C97_text"
   ],
   "note": "False for arrays of 4 GiB and more, possible on 64-bit systems: the product does not fit into uint32_t and the size reported is smaller (C97_large_refuted, for every such list). Proved for all others. sizeof(DATA_TYPE) is a parameter."
  }
 ]
}