# Formal model of Embedded Proto in Rocq (Coq 8.16.1)

## Approach

The C++ runtime in `/repo/src`, the code that the Jinja templates in
`/repo/generator/EmbeddedProto/templates` generate, and the Python generator itself are modelled as
total, computable Gallina functions.

* **Message types are data.** The templates are modelled as an interpreter of message descriptors
  (`ety`, `Schema.v`): a message type is a value of an inductive type, so "for every message type" is an
  ordinary `forall`. `desc_ok` collects what protoc guarantees (distinct field numbers between 1 and
  2^29-1) and capacities between 1 and 2^31-1.
* **Outcomes**: `res A := Done a | UB | Fuel`. `UB` is undefined behaviour (access outside an array,
  memcpy outside an array, use of an indeterminate or dead value). `Fuel` is exhaustion of the bound given
  to a `while` loop that has no static bound; theorems either give a bound that is never exhausted, or
  (non-termination) prove `Fuel` for every bound.
* **C++ integers** are `Z`, with the wrap of the C++ type written explicitly (`u8/u32/u64/s32/s64`).
  float and double are their IEEE bit patterns: the code copies them and compares them with 0.0.
* **Buffers**: `WriteBufferInterface` and `ReadBufferInterface` are records of operations over an
  arbitrary state type, so every serialize/deserialize function is polymorphic in the buffer, as the C++
  is in the dynamic type. The four library classes are instances. `Contracts.v` states what a conforming
  user-written buffer has to do; the library classes are proved to conform (`BufferProofs.v`).
* **Objects** (`value`) hold the raw members: `current_length_`, the whole backing array including
  elements that no getter shows, presence words, `which_x_`, union storage (possibly indeterminate).
  `view` is what the getters show. Histories of API calls are lists of `op` (`Api.v`).
* **The generator** works on requests (`Generator.v`): names are texts, a Python exception is `None`, the
  recursion limit is a parameter.

Evidence that the model follows the code: `RepoTests.v` transcribes the repository's own unit tests (138 of the
145; the others only construct objects or read names and sizes) with their mock buffers and expected bytes and decides them by
computation on the model. All of them give the expected answer, except where the test itself reads behind an
array (a string that fills its array has no terminating zero): there the model says UB. These are tests of the
model, not properties.

The property theorems stand alone in `Properties*.v`: each is closed by `exact`, followed by
`Print Assumptions` and an `Example` that shows a concrete case meeting its hypotheses. What their
statements mean is fixed by the specification files `Spec*.v` and `Contracts.v`, which do not refer to the
model functions (wire format and merge semantics in `Spec.v`, arbitrary input in `SpecRead.v`, API calls in
`SpecApi.v`, buffers in `SpecBuffer.v`/`SpecLoad.v`, JSON in `SpecToString.v`, generated classes in
`SpecGenerator.v`, `SpecParams.v`, `SpecMembers.v`, `SpecFiles.v` and `SpecInstance.v`, comparisons in `SpecCompare.v`, versions of a
type in `SpecVersions.v`, places inside an object in `SpecAlias.v`, bodies of generated functions
in `SpecBody.v`, enums in `SpecEnum.v`, names that continue other names in `SpecLonger.v`, costs in `SpecWork.v`, other orders of the input in `SpecFieldOrder.v`, lists that grow in `SpecAccess.v`, streams of messages in `SpecStream.v`, programs that pass messages on in `SpecRelay.v`, references that are kept in `SpecKept.v`, tags that occur in the input in `SpecMentions.v`, receiving twice in `SpecTwice.v`, merging and updates in `SpecMerge.v`, conversations in `SpecTalk.v`, updates from other versions in `SpecUpdate.v`, larger lengths in `SpecWider.v`, parts of requests in `SpecTogether.v`, updates of .proto files in `SpecEvolve.v`, protoc in `SpecPlugin.v`, programs with different versions in `SpecPrograms.v`, calls on different parts in `SpecCalls.v`).

## Files

All under `rocq/theories`, in build order.

| file | lines | content |
| --- | --- | --- |
| `Base.v` | 101 | outcomes, C++ integers, arrays, error codes |
| `Buffers.v` | 192 | the read and write buffer interfaces and the concrete classes |
| `Wire.v` | 229 | src/WireFormatter.h |
| `Schema.v` | 110 | message types produced by the generator, and the state of message objects |
| `Fields.v` | 314 | src/Fields.h, src/Fields.cpp, src/FieldStringBytes.h, src/RepeatedField.h, src/RepeatedFieldFixedSize.h, the parts that read and write buffers |
| `Message.v` | 263 | the generated message classes (generator/EmbeddedProto/templates) and src/MessageInterface.cpp |
| `Api.v` | 545 | the mutating public API of message objects (setters, mutable accessors, clear, copy), and histories of API calls |
| `Spec.v` | 573 | what the wire format and the API are supposed to mean |
| `Contracts.v` | 107 | what a user-supplied buffer class must guarantee |
| `BitLemmas.v` | 209 | Arithmetic and list lemmas |
| `WriteProofs.v` | 219 | Proofs about the writing functions of WireFormatter |
| `ReadProofs.v` | 358 | Proofs about the reading functions of WireFormatter |
| `ScalarProofs.v` | 223 | ZigZag, and the 14 scalar types |
| `BufferProofs.v` | 286 | The concrete buffer classes meet the contracts |
| `Struct.v` | 181 | Structural lemmas: induction over types, presence bits, positions of fields |
| `SerProofs.v` | 504 | serialize writes the specification encoding |
| `WireProps.v` | 308 | Lemmas behind the properties of the wire formatter (C01-C09, C48) |
| `PropertiesWire.v` | 229 | Properties of the wire formatter: C01-C09 and C48 |
| `SpecBuffer.v` | 172 | abstract behaviour of the buffers, and sequences of calls on them |
| `BufferProps.v` | 436 | Lemmas behind the buffer properties (C10-C15) |
| `BufferLaws.v` | 262 | what the buffers do for every argument, the faulty cases included |
| `PropertiesBuffer.v` | 296 | Properties of the buffers: C10-C15 |
| `Samples.v` | 41 | concrete message types and objects used by the examples beside the theorems |
| `SerProps.v` | 284 | Lemmas behind the serialization properties (C16-C19, C45) |
| `PropertiesSer.v` | 128 | Properties C16-C19 and C45: serialization of messages |
| `Tables.v` | 269 | Field tables: how views, validity and cleanness of a message relate to those of its fields |
| `DecodeProofs.v` | 563 | Decoding follows the record semantics of Spec.v |
| `RoundTrip.v` | 304 | The encoding of an object decodes, record by record, to the value it shows |
| `ClearProofs.v` | 130 | clear() (C40): every valid object becomes one that shows the default value and has no left-over data |
| `DecodeProps.v` | 279 | Lemmas behind the decoding properties (C20-C24, C47) |
| `DecodeSamples.v` | 111 | Sample encodings used by the examples beside the decoding theorems |
| `PropertiesDecode.v` | 163 | Properties C20-C24, C40 and C47: decoding of well-formed input |
| `SafetyProofs.v` | 269 | Memory safety, termination and confinement of decoding, for arbitrary input (C27, C28, C46) |
| `SafetyMsg.v` | 341 | Memory safety of the message decoder for arbitrary input, by induction on the message type |
| `SafetyProps.v` | 482 | Proofs of the properties in PropertiesSafety.v (C27, C28, C46) |
| `PropertiesSafety.v` | 142 | Properties C27, C28 and C46: decoding of arbitrary bytes |
| `SpecApi.v` | 213 | legal API calls, and what they are supposed to do, in terms of what the getters show |
| `TidyProofs.v` | 297 | An invariant of every reachable object: an absent optional field holds its default value, at all depths |
| `AssignProofs.v` | 244 | Assignment copies everything the getters show (C39) |
| `ApiProofs.v` | 409 | Every legal API call on a valid object is memory safe, keeps the object valid, and has the effect described in SpecApi.v |
| `AnyBuffer.v` | 104 | Facts about decoding that hold for every read buffer, also one that breaks its contract: nothing is assumed about the functions of the buffer |
| `ApiProps.v` | 545 | The statements of PropertiesApi.v, from [op_safe] |
| `ApiSamples.v` | 48 | Histories and types used by the examples and counterexamples of PropertiesApi.v |
| `PropertiesApi.v` | 349 | Properties C27 (reachability), C30-C32, C34-C37 and C39: the mutating API |
| `SpecRead.v` | 231 | Specification of decoding for arbitrary bytes: which error, which values, how much was read |
| `ReadAny.v` | 825 | Decoding of arbitrary bytes: the decoder follows the relations of SpecRead.v |
| `ReadTotal.v` | 351 | Decoding of arbitrary bytes: the relations of SpecRead.v cover every byte string |
| `SpecMalformed.v` | 51 | Notions used by the properties about malformed input |
| `MalformedProps.v` | 1041 | Malformed input at the level of whole messages |
| `MalformedSamples.v` | 59 | Sample of malformed input used by the examples beside the theorems |
| `PropertiesMalformed.v` | 860 | malformed, truncated and unusual input |
| `Printf.v` | 25 | the text produced by the printf conversions that to_string() uses |
| `ToString.v` | 197 | the to_string() methods (compiled with MSG_TO_STRING) |
| `SpecToString.v` | 283 | what to_string() is supposed to print |
| `ToStringProofs.v` | 523 | to_string() writes the layout of the document, piece by piece |
| `ToStringProps.v` | 545 | to_string(): memory, and JSON |
| `ToStringExact.v` | 423 | to_string(): the text is JSON for the document only under the conditions of [doc_ok] |
| `ToStringSamples.v` | 200 | The properties of to_string() in the form PropertiesToString.v states them; sample types |
| `PropertiesToString.v` | 198 | Properties C49 and C56: to_string() (code compiled with MSG_TO_STRING) |
| `Generator.v` | 475 | how the code generator turns message definitions into C++ classes |
| `SpecGenerator.v` | 198 | what the headers written by the generator have to satisfy |
| `SpecParams.v` | 24 | the lengths that the user of a generated class has to give |
| `GenOrder.v` | 367 | proofs about names and the order of the classes |
| `GenSort.v` | 666 | classes are completed before they are used |
| `GenReg.v` | 406 | the state after the registration of the template parameters |
| `GenRender.v` | 406 | the classes that are written, for the messages of a request |
| `GenTypes.v` | 321 | template parameters and the types of the member variables |
| `GenOnce.v` | 171 | no name twice among the member variables and the template parameters of a class |
| `GenNames.v` | 329 | the order of the declarations and what the names in the types stand for |
| `GenProps.v` | 430 | the properties of the generated classes |
| `GenDeclared.v` | 81 | when the parameters in the type of a member variable are declared |
| `GenParams.v` | 243 | the template parameters of a class are the lengths left open in its message |
| `GenAcceptAll.v` | 141 | which requests the generator accepts, with types around their own message |
| `EndlessSamples.v` | 26 | a message that comes back to a list of itself |
| `GenShadow.v` | 73 | what a shadowed name stands for |
| `GenTopo.v` | 87 | when the messages of a file can be sorted |
| `GenAccept.v` | 876 | which requests the generator accepts |
| `GenSamples.v` | 378 | sample requests for the generator |
| `SpecLonger.v` | 20 | messages whose name continues the name of another message (properties C57 and C59) |
| `GenSingle.v` | 174 | the type of a field that is not repeated is complete in an accepted request, whatever the names |
| `GenLonger.v` | 240 | a message whose name continues that of another message, which uses it |
| `LongerSamples.v` | 54 | sample requests with names that continue other names |
| `PropertiesGenerator.v` | 518 | Properties C50, C57, C58 and C59: the classes written by the code generator |
| `SpecLoad.v` | 76 | filling a ReadBufferFixedSize through get_data() and set_bytes_written(), mixed with the other calls |
| `LoadProps.v` | 311 | Filling a ReadBufferFixedSize; the theorems over all conforming buffers for the library classes |
| `PropertiesFixed.v` | 128 | Property C60, filling a read buffer, and what C18, C20, C22 and C24 mean for the two buffer classes of the library |
| `GenMembers.v` | 226 | the names that a generated class declares and the names that its functions use |
| `SpecMembers.v` | 104 | the rules of C++ for the names declared in a class, and names that give no trouble |
| `GenMemberKeys.v` | 202 | how the names declared in a class are made, and that different names stay different |
| `GenMembersProofs.v` | 416 | the declarations and uses of names in a generated class |
| `GenMembersUses.v` | 208 | what the functions of a generated class name is declared |
| `GenMembersProps.v` | 368 | which messages give a class with correct names |
| `GenMembersSamples.v` | 152 | deciding whether a class has correct names, and messages to try it on |
| `PropertiesMembers.v` | 154 | Property C61: the members of a generated class |
| `Compare.v` | 99 | the comparison operators of the scalar field classes, src/Fields.h:202-220 |
| `SpecCompare.v` | 73 | comparing the numbers that fields stand for |
| `CompareProps.v` | 192 | proofs about the comparison operators |
| `FloatProps.v` | 462 | comparing float and double with each other and with integers |
| `PropertiesCompare.v` | 183 | Property C62: comparing fields |
| `GenFiles.v` | 61 | the header files that the generator writes: their names, include guards and includes |
| `SpecFiles.v` | 100 | how a C++ compiler reads header files, and what including one should do |
| `GenFilesProps.v` | 685 | proofs about the header files |
| `GenFilesSamples.v` | 80 | a request for the examples about header files, and checks of its properties by computation |
| `PropertiesFiles.v` | 145 | Property C63: including generated headers |
| `GenCode.v` | 33 | what the functions of a generated class do with the fields |
| `SpecInstance.v` | 109 | the message type that a .proto file declares, and the one that a generated class has |
| `GenInstance.v` | 529 | generated classes have the type that is declared |
| `GenInstanceSamples.v` | 144 | a request for the examples beside the theorems of PropertiesInstance |
| `GenInstanceWire.v` | 40 | C64 together with the properties of messages |
| `PropertiesInstance.v` | 45 | Property C64: the class that is generated for a message has the fields, numbers, types and lengths that the .proto file declares |
| `SpecRetype.v` | 52 | a field whose scalar type is changed between two versions of a .proto file |
| `RetypeProofs.v` | 128 | Reading a scalar as another type |
| `SpecVersions.v` | 135 | sender and receiver with different versions of a .proto file, and with different lengths |
| `VersionProofs.v` | 1019 | What a receiver with another version of the message type reads |
| `VersionSamples.v` | 73 | Other versions of the message Outer of Samples.v |
| `PropertiesVersions.v` | 58 | Property C65: sender and receiver compiled from different versions of a .proto file |
| `Alias.v` | 276 | calls whose argument is a reference into the object that is changed, such as `msg.set_b(msg.get_a())`, `msg = msg` or `list.add(list[0])` |
| `SpecAlias.v` | 83 | places inside an object, and the same call with a copy as argument |
| `AliasProofs.v` | 755 | Calls whose argument refers into the object itself |
| `AliasSamples.v` | 60 | Objects for the examples beside C66 |
| `PropertiesAlias.v` | 80 | Property C66: arguments that refer into the object that is changed |
| `PropertiesRetype.v` | 71 | Property C67: the scalar type of a field is changed between two versions of a .proto file |
| `SpecReorder.v` | 19 | the same definitions, written in another order |
| `ReorderProofs.v` | 441 | the generator's result does not depend on the order of the messages in a file |
| `PropertiesReorder.v` | 58 | Property C68: the headers do not depend on the order of the messages in the .proto files |
| `GenEnum.v` | 42 | the text of the enums the generator writes |
| `SpecEnum.v` | 99 | how C++ reads the definition of an enum |
| `EnumProofs.v` | 307 | the text of an enum is read by C++ as the enum of the .proto |
| `PropertiesEnum.v` | 93 | Property C69: generated enums have the names and numbers of the .proto |
| `SpecHistory.v` | 60 | calls that shorten no list of messages, told from what the getters show |
| `CleanProofs.v` | 602 | Left-overs: which calls keep an object free of them ([clean], Spec.v) |
| `HistoryProps.v` | 129 | The statements about careful histories (C22, C35) and about what a shortened list leaves behind |
| `PropertiesHistory.v` | 105 | Theorems about objects after a history of calls: C22, C35 |
| `SpecExact.v` | 51 | Specification of what the last bytes of an encoding are (C17) |
| `ExactProofs.v` | 531 | Which objects fit in exactly serialized_size() bytes (C17) |
| `PropertiesExact.v` | 38 | C17: which objects fit in exactly serialized_size() bytes |
| `GenBody.v` | 658 | the bodies of the functions of a generated class, as the templates write them, and what running them does |
| `SpecBody.v` | 148 | objects of generated classes, as their variables and as values of Schema.v |
| `GenBodyRun.v` | 164 | running the statements of a generated class: lists, switches, names |
| `GenBodySound.v` | 285 | the names in the functions of a generated class stand for what they should |
| `GenBodyOneof.v` | 336 | the functions that a generated class has for a oneof |
| `GenBodySer.v` | 227 | the statements of serialize() do what [serialize] of Message.v says |
| `GenBodyDes.v` | 221 | the statements of deserialize() do what [deserialize] of Message.v says |
| `GenBodyApi.v` | 383 | clear(), operator= and the accessors of a generated class do what Api.v says |
| `GenBodyLegal.v` | 308 | the classes of messages with clear names are ones whose names are all different |
| `GenBodyCalls.v` | 339 | the functions of a generated class, called by name |
| `GenBodyObject.v` | 364 | new objects of a generated class, what its getters show, and what a call leaves alone |
| `GenBodySamples.v` | 106 | the class of the message Screen (GenInstanceSamples.v) and a program that uses it |
| `PropertiesBody.v` | 176 | Property C70: the functions written into a generated class do what the .proto says, each with its own variables |
| `GenBodyPrint.v` | 148 | the statements of to_string() do what [elem_to_string] of ToString.v says |
| `SpecWork.v` | 132 | counting the calls made to a buffer |
| `WorkProofs.v` | 557 | Counting the calls decode makes (C71) |
| `PropertiesWork.v` | 142 | Properties C71 and C72: the cost of deserialize() and serialize() |
| `Metered.v` | 157 | serialize() with a counter of the calls to push() |
| `MeteredProofs.v` | 583 | The metered serialize() is serialize() with a counter, and the counter ends at [work] (C72) |
| `MeteredProps.v` | 256 | What follows from the count: bounds, and growth with the nesting (C72) |
| `MeteredPasses.v` | 109 | A bound on the calls of push() that depends on how messages and lists are nested (C72) |
| `SpecRefused.v` | 8 | Notions used by C73 |
| `ValueLaws.v` | 297 | what happens to negative zeros, C strings, strings and integers in every position |
| `RefusedProps.v` | 209 | what a refused record leaves in a repeated field (C73) |
| `ConfinedLaws.v` | 116 | A nested message that is cut short and ends in an unknown record (C46) |
| `CutProofs.v` | 216 | Nested values that announce more bytes than the buffer has left (C46) |
| `LawSamples.v` | 28 | the message type of the examples in PropertiesLaws.v and PropertiesRefused.v |
| `PropertiesLaws.v` | 272 | negative zeros, C strings, strings, varints and negative integers in every object and position |
| `PropertiesRefused.v` | 153 | what a refused record leaves in a repeated field |
| `SpecWrite.v` | 35 | write buffers that refuse bytes (C45) Nothing here refers to the serializer: what a write buffer answers to the bytes offered to it, through the interface src/WriteBufferInterface.h:38-95 ([wops], Buffers.v) |
| `SpecAlike.v` | 31 | buffers that answer alike (C74) Two buffers, possibly of different classes, seen only through the functions of src/WriteBufferInterface.h:38-95 and src/ReadBufferInterface.h:43-92 |
| `AlikeProofs.v` | 445 | Buffers that answer alike are treated alike (C74): a parametricity argument, function by function |
| `AlikeProps.v` | 91 | Consequences of AlikeProofs.v, and the law of SerializeVarint with a buffer that refuses a byte (C45, C74) |
| `PropertiesAlike.v` | 50 | Property C74: messages know a buffer only by its answers |
| `SpecSize.v` | 43 | the largest encoding a message type can have, from the .proto alone |
| `SizeProofs.v` | 417 | Proofs for C75: the largest encoding of a message type |
| `PropertiesSize.v` | 40 | C75: a buffer chosen for the largest message of a type |
| `Stack.v` | 36 | the generated deserialize() and serialize() with a limit on how many of them may be active at once |
| `SpecStack.v` | 26 | How deeply a message type is nested |
| `StackProofs.v` | 482 | Proofs about the depth of the stack |
| `StackNeeded.v` | 392 | Proofs about the depth of the stack (C76): what serialize() needs for a given object |
| `PropertiesStack.v` | 55 | C76: the stack needed does not depend on the data |
| `AloneProofs.v` | 69 | Proofs about field objects that are written and read on their own |
| `PropertiesAlone.v` | 63 | C77: a field object written and read on its own |
| `SameProofs.v` | 89 | the serialized bytes say which message it was (C78) |
| `PropertiesSame.v` | 47 | Property C78: the serialized bytes say which message it was |
| `SpecFieldOrder.v` | 33 | the records of a message in another order |
| `FieldOrderProofs.v` | 362 | the order of records of different fields does not matter (C79) |
| `FieldOrderSamples.v` | 56 | A sample for C79 |
| `PropertiesFieldOrder.v` | 27 | Property C79: fields may arrive in any order |
| `SpecAccess.v` | 24 | lists that grow when an element behind their end is written |
| `AccessProofs.v` | 235 | reading and writing single elements of strings, bytes and repeated fields (C80) |
| `PropertiesAccess.v` | 90 | Property C80: single elements of strings, bytes fields and lists |
| `Stream.v` | 46 | a program that uses the library to write and read messages one after the other |
| `SpecStream.v` | 32 | messages with their length in front |
| `StreamProofs.v` | 160 | messages with their length in front (C81) |
| `PropertiesStream.v` | 103 | Property C81: several messages in one buffer, each with its length in front |
| `SpecRelay.v` | 17 | a program that reads a message and sends it on |
| `RelayProofs.v` | 233 | reading with one version and sending on to another (C82) |
| `RelayOneof.v` | 94 | members of oneofs that pass through a program in between (C82) |
| `RelaySamples.v` | 100 | An older version of the message Outer of Samples.v, and a message that passes through it |
| `PropertiesRelay.v` | 88 | Property C82: a program with another version of the .proto file between sender and receiver |
| `AliasText.v` | 39 | string and bytes fields set from a pointer into their own array, such as `s.set(s.get_const() + 2, 3)` or `s = s.get_const() + 2` |
| `AliasTextProofs.v` | 90 | Strings set from their own characters |
| `PropertiesAliasText.v` | 64 | Property C66, continued: strings and bytes fields set from a pointer into their own array |
| `Kept.v` | 61 | references that are kept while other calls are made on the object, as in `auto& r = msg.mutable_f(); ...; r.set_x(1);` |
| `SpecKept.v` | 78 | what an object shows at a place, and calls after which it still does |
| `KeptProofs.v` | 518 | References that are kept |
| `KeptSamples.v` | 64 | Objects for the examples beside C83 |
| `PropertiesKept.v` | 91 | Property C83: references returned by mutable_, get_ and [] that are kept while other calls are made |
| `SpecMentions.v` | 9 | Bytes that mention a field Specification of C84 |
| `MentionsProofs.v` | 223 | A record changes only the field it names: proofs for C84 |
| `MentionsSamples.v` | 35 | Helpers for the examples of C84: all the numbers that a byte string mentions |
| `PropertiesMentions.v` | 79 | Property C84: a record changes only the field it names |
| `SpecTwice.v` | 39 | Receiving a message twice Specification of C85 |
| `TwiceProofs.v` | 681 | Decoding the same bytes twice: proofs for C85 |
| `TwiceParts.v` | 119 | Receiving a message twice, in any class: the parts without lists (C85) |
| `TwiceSamples.v` | 32 | Samples used beside the theorems of C85 |
| `PropertiesTwice.v` | 110 | Property C85: receiving a message twice |
| `SpecMerge.v` | 66 | Merging one message into another Specification of C86 and C87 |
| `MergeProofs.v` | 416 | Merging a serialized message into an object (C86) |
| `MergeLaws.v` | 186 | Laws of merging (C86, C87) |
| `MergeSamples.v` | 85 | Samples used beside the theorems of C86 and C87 |
| `PropertiesMerge.v` | 68 | Properties C86 and C87: an object is updated by what another one sends |
| `SpecTalk.v` | 119 | objects that are changed by calls and send each other messages |
| `TalkProofs.v` | 249 | Calls have the effect the specification says, and so have conversations (C88) |
| `TalkSamples.v` | 48 | A conversation of two objects, used beside the theorems of C88 |
| `PropertiesTalk.v` | 27 | Property C88: objects that are changed by calls and send each other messages |
| `RepoTests.v` | 1039 | the unit tests of the repository, run on the model |
| `SpecUpdate.v` | 87 | an object that is updated by a program with another version of the .proto file Specification of C89 |
| `UpdateProofs.v` | 523 | An object that is updated by a program with another version of the message type (C89) |
| `UpdateSamples.v` | 31 | Samples used beside the theorems of C89 |
| `PropertiesUpdate.v` | 51 | Property C89: an object is updated by a program that was compiled from another version of the .proto file |
| `SpecWider.v` | 27 | a class whose strings, byte arrays and lists have room for more |
| `WiderProofs.v` | 191 | A class with room for more decodes and encodes the same (C90) |
| `WiderSer.v` | 215 | A class with room for more encodes the same (C90) |
| `WiderSamples.v` | 24 | Samples used beside the theorems of C90 |
| `PropertiesWider.v` | 81 | Property C90: larger lengths for strings, bytes and lists |
| `SpecTogether.v` | 13 | files of a request that use no types of other files |
| `GenTogether.v` | 278 | the registrations, and so the classes, of a file do not depend on the other files of the request |
| `GenTogether2.v` | 221 | GenTogether2: the headers of two requests |
| `GenTogether3.v` | 195 | GenTogether3: fewer files can be given to the generator |
| `TogetherSamples.v` | 21 | requests with the same files for PropertiesTogether.v |
| `PropertiesTogether.v` | 51 | Property C91: the header of a file does not depend on what else the generator is given |
| `SpecEvolve.v` | 59 | an update of the .proto files, seen in the .proto files |
| `EvolveProofs.v` | 273 | the types that two versions of the .proto files declare (C92) |
| `EvolveSamples.v` | 222 | the .proto files of GenInstanceSamples.v after an update, and with other names only (C92) |
| `PropertiesEvolve.v` | 71 | Property C92: updates of the .proto files, and new names |
| `SpecPrograms.v` | 90 | programs with different versions of the .proto files that keep each other up to date |
| `ProgramsProofs.v` | 273 | programs with different versions of the .proto files (C93) |
| `ProgramsSamples.v` | 78 | programs with the .proto files [screens] and [windows] of C92 (C93) |
| `PropertiesPrograms.v` | 25 | Property C93: programs with different versions of the .proto files that keep each other up to date |
| `GenPlugin.v` | 64 | the plugin that protoc calls: from the request to the response |
| `SpecPlugin.v` | 42 | how protoc uses the plugin, and what its user expects |
| `PluginProofs.v` | 303 | the response of the plugin |
| `PluginSamples.v` | 35 | requests for the examples about the plugin |
| `PropertiesPlugin.v` | 87 | Property C94: what protoc writes when it is called with the plugin |
| `RoomProofs.v` | 351 | Proofs for C95: what was read needs no more room than the bytes it was read from |
| `RoomSamples.v` | 16 | Sample objects and bytes for PropertiesRoom.v |
| `PropertiesRoom.v` | 99 | the room that a received object needs to be sent again |
| `SpecCalls.v` | 66 | calls on different parts of an object |
| `CallsProofs.v` | 714 | Proofs for C96: calls on different parts of an object in any order |
| `CallsSamples.v` | 104 | Lists of calls for the examples beside C96 |
| `PropertiesCalls.v` | 96 | the order of calls on different parts of an object |
| `ListSize.v` | 12 | the lengths and sizes that lists, strings and bytes report |
| `ListSizeProofs.v` | 65 | Proofs about the sizes that lists report |
| `PropertiesListSize.v` | 59 | Property C97: the lengths and sizes that lists, strings and bytes report |

## Properties: how each is modelled and proved, and the outcome

Statements in English: `properties.jsonl`. *partial* covers two cases: the code violates the property (then a
`_refuted` theorem proves the violation, where possible for every input of a class, and the `_partial` theorems
prove what does hold), or only a part is proved.

### C01 Varint write/read round trip

How: arithmetic specification of varint, zigzag and little endian in `Spec.v`; the loops of `Wire.v` are proved equal to it by induction over the bytes, for any conforming buffer.

Status: **proved**. All widths, all values, any write/read buffer meeting the contracts.

Theorems: `C01_varint_round_trip`.

### C02 Varint output is the canonical protobuf varint

How: arithmetic specification of varint, zigzag and little endian in `Spec.v`; the loops of `Wire.v` are proved equal to it by induction over the bytes, for any conforming buffer.

Status: **proved**. Canonical form and its uniqueness.

Theorems: `C02_varint_canonical`, `C02_canonical_unique`.

### C03 Varint reader decides every byte string

How: arithmetic specification of varint, zigzag and little endian in `Spec.v`; the loops of `Wire.v` are proved equal to it by induction over the bytes, for any conforming buffer.

Status: **proved**. Every byte sequence: value, OVERLONG_VARINT or END_OF_BUFFER, with the exact number of bytes consumed.

Theorems: `C03_varint_reader_total`.

### C04 ZigZag is a bijection equal to the protobuf map

How: arithmetic specification of varint, zigzag and little endian in `Spec.v`; the loops of `Wire.v` are proved equal to it by induction over the bytes, for any conforming buffer.

Status: **proved**. ZigZag code equals the mathematical zigzag and is a bijection, 32 and 64 bit.

Theorems: `C04_zigzag`.

### C05 Fixed-width little-endian round trip

How: arithmetic specification of varint, zigzag and little endian in `Spec.v`; the loops of `Wire.v` are proved equal to it by induction over the bytes, for any conforming buffer.

Status: **proved**. Fixed32/Fixed64 little endian round trip.

Theorems: `C05_fixed_round_trip`.

### C06 Field tags encode number and wire type faithfully

How: arithmetic specification of varint, zigzag and little endian in `Spec.v`; the loops of `Wire.v` are proved equal to it by induction over the bytes, for any conforming buffer.

Status: **proved**. All field numbers 1..2^29-1 and wire types; undefined wire types are rejected.

Theorems: `C06_tag_round_trip`, `C06_tag_reader_rejects`.

### C07 int32 reader accepts both sign-extension conventions

How: arithmetic specification of varint, zigzag and little endian in `Spec.v`; the loops of `Wire.v` are proved equal to it by induction over the bytes, for any conforming buffer.

Status: **proved**. Both the 5-byte and the 10-byte encoding of negative int32 are read.

Theorems: `C07_int32_both_conventions`.

### C08 Every scalar type round-trips

How: arithmetic specification of varint, zigzag and little endian in `Spec.v`; the loops of `Wire.v` are proved equal to it by induction over the bytes, for any conforming buffer.

Status: **proved**. All 14 scalar classes, all representable values.

Theorems: `C08_scalar_round_trip`.

### C09 Any valid protobuf bool varint is understood

How: the bool reader is compared with the varint specification; the deviation is a theorem.

Status: **partial**. False of the code: the bool reader takes exactly one byte, so a two-byte varint for true/false desynchronises. _refuted gives the counterexample, _partial proves one-byte varints. C09_longer_refuted: no varint of two or more bytes is consumed, for every reader.

Theorems: `C09_bool_any_varint_refuted`, `C09_longer_refuted`, `C09_bool_one_byte_partial`.

### C10 Fixed write buffer is a bounded byte log

How: refinement: induction over the list of calls against an abstract log, queue or window (`SpecBuffer.v`).

Status: **partial**. Holds for legal call histories without 32-bit wrap of the bulk length; _refuted shows the wrap.

Theorems: `C10_write_log_partial`, `C10_room_partial`, `C10_calculator`, `C10_refused_unchanged`, `C10_write_log_refuted`.

### C11 Bulk push succeeds exactly when the bytes fit

How: exact characterisation of a single call; the deviations are theorems.

Status: **partial**. False of the code: bulk push refuses to fill the last byte (off by one) and accepts lengths that wrap. _partial gives the exact condition. C11_any_length_refuted gives the outcome for every uint32_t length in every state (stored, refused, or memory outside the buffer written); C11_exact_room_refuted: what fits exactly is always refused.

Theorems: `C11_bulk_push_fits_refuted`, `C11_bulk_push_partial`, `C11_any_length_refuted`, `C11_exact_room_refuted`.

### C12 Fixed read buffer is a FIFO

How: refinement: induction over the list of calls against an abstract log, queue or window (`SpecBuffer.v`).

Status: **proved**. Refines a FIFO queue for every call history.

Theorems: `C12_read_fifo`, `C12_sizes`.

### C13 advance(N) only moves forward over available bytes

How: exact characterisation of a single call; the deviations are theorems.

Status: **partial**. False of the code: advance(N) wraps; _partial covers N up to the unread bytes. C13_any_argument_refuted gives the outcome of every history with every uint32_t argument: when the consumed bytes and N reach 2^32 together the buffer moves backwards.

Theorems: `C13_advance_refuted`, `C13_advance_partial`, `C13_any_argument_refuted`.

### C14 A section exposes exactly its window

How: refinement: induction over the list of calls against an abstract log, queue or window (`SpecBuffer.v`).

Status: **partial**. Window semantics for every call history on a section within the parent's data; over-advance in a truncated window refuted. C14_overadvance_law_refuted: the failure, for every fixed-size buffer from which bytes were consumed.

Theorems: `C14_section_window_partial`, `C14_sizes`, `C14_section_is_reader`, `C14_overadvance_refuted`, `C14_overadvance_law_refuted`.

### C15 Section advance(N) reports whether N bytes were held

How: exact characterisation of a single call; the deviations are theorems.

Status: **partial**. False of the code: advance(N) of a section reports the opposite in some cases; _partial states what holds. C15_any_argument_partial, C15_beyond_refuted and C15_zero_refuted give the outcome of every advance(N) of every section over every conforming parent.

Theorems: `C15_section_advance_refuted`, `C15_section_advance_zero_refuted`, `C15_section_advance_partial`, `C15_any_argument_partial`, `C15_beyond_refuted`, `C15_zero_refuted`.

### C16 serialized_size equals the bytes written

How: one induction over the message type: on any conforming write buffer serialize() appends a prefix of the specification encoding `enc` and succeeds iff all of it was accepted.

Status: **proved**. All message types and valid objects, any writer.

Theorems: `C16_serialized_size`.

### C17 Serialization into exactly enough space succeeds

How: one induction over the message type: on any conforming write buffer serialize() appends a prefix of the specification encoding `enc` and succeeds iff all of it was accepted.

Status: **partial**. False of the code: a message whose encoding ends in a string or bytes payload needs one spare byte. C17_exact_space_iff says exactly when serialize() succeeds, for every object and every amount of free space.

Theorems: `C17_exact_space_iff`, `C17_exact_space_refuted`, `C17_exact_space_partial`.

### C18 Failed serialization leaves a clean prefix

How: one induction over the message type: on any conforming write buffer serialize() appends a prefix of the specification encoding `enc` and succeeds iff all of it was accepted.

Status: **proved**. All message types, any writer.

Theorems: `C18_fixed_buffer`, `C18_prefix_or_all`.

### C19 Serialized bytes are the protobuf encoding

How: one induction over the message type: on any conforming write buffer serialize() appends a prefix of the specification encoding `enc` and succeeds iff all of it was accepted.

Status: **proved**. All message types; enc in Spec.v is the proto3 encoding.

Theorems: `C19_wire_format`.

### C20 Message round trip

How: relational merge semantics (`mdec`, `padded`) in `Spec.v`; the decoder is proved to follow it by mutual induction on the derivation; `enc` is shown to be derivable.

Status: **proved**. All message types and objects. Equality of all getters; for a -0.0 in a plain float field up to the sign (see C21).

Theorems: `C20_round_trip`, `C20_fixed_buffers`.

### C21 Negative zero survives the round trip

How: relational merge semantics (`mdec`, `padded`) in `Spec.v`; the decoder is proved to follow it by mutual induction on the derivation; `enc` is shown to be derivable.

Status: **partial**. False for every object with -0.0 in a plain float/double field at any depth (it is not written; C21_always_lost_refuted); _partial proves every type without plain float fields.

Theorems: `C21_negative_zero_refuted`, `C21_negative_zero_partial`, `C21_always_lost_refuted`.

### C22 Decoder implements the protobuf merge semantics

How: relational merge semantics (`mdec`, `padded`) in `Spec.v`; the decoder is proved to follow it by mutual induction on the derivation; `enc` is shown to be derivable.

Status: **proved**. All types, all well-formed record sequences (mdec, Spec.v), any reader. C22_merge is for clean objects; C22_careful for every object reached by legal calls that shorten no list of messages except by clearing it (SpecHistory.v), decodes that fail included; for the rest see C35. Accepted varint widths are those of the reader, see C51.

Theorems: `C22_merge`, `C22_fixed_buffer`, `C22_careful`.

### C23 Concatenation equals successive decoding

How: relational merge semantics (`mdec`, `padded`) in `Spec.v`; the decoder is proved to follow it by mutual induction on the derivation; `enc` is shown to be derivable.

Status: **proved**. All types, any two well-formed encodings.

Theorems: `C23_concatenation`.

### C24 Unknown fields are skipped

How: relational merge semantics (`mdec`, `padded`) in `Spec.v`; the decoder is proved to follow it by mutual induction on the derivation; `enc` is shown to be derivable.

Status: **proved**. Any number of unknown varint/32-bit/64-bit/length-delimited records at all positions.

Theorems: `C24_unknown_fields`, `C24_fixed_buffer`.

### C25 Unknown group content does not leak into the message

How: `SpecRead.v` describes case by case what any byte string does; the decoder is proved to follow it and the description is proved total; the properties are its consequences.

Status: **partial**. False of the code: only the tags of an unknown group are skipped, its content is decoded as if outside (proved for every content). Proved: groups with only unknown numbers inside, any nesting, change nothing.

Theorems: `C25_group_refuted`, `C25_group_partial`.

### C26 A truncated unknown field is reported

How: `SpecRead.v` describes case by case what any byte string does; the decoder is proved to follow it and the description is proved total; the properties are its consequences.

Status: **partial**. False of the code for ReadBufferFixedSize: the payload of a truncated unknown field is read as fields of the message (proved for every payload, lengths that do not wrap the index; wrapping: C28). Proved: other wire types and a cut length are reported; inside a complete nested message the payload is not interpreted (but not reported).

Theorems: `C26_truncated_unknown_refuted`, `C26_other_wiretypes_partial`, `C26_nested_partial`.

### C27 Decoding never leaves memory bounds

How: weak contract (`reader_safe`): induction over the message type and the loop bound, for arbitrary bytes.

Status: **proved**. Generic over safe read buffers and for the fixed-size buffer. Validity of every object reachable through the API: C27_reachable (PropertiesApi.v).

Theorems: `C27_reachable`, `C27_decode_safe`, `C27_decode_safe_fixed`.

### C28 Decoding always terminates

How: weak contract (`reader_safe`): induction over the message type and the loop bound, for arbitrary bytes.

Status: **partial**. False for ReadBufferFixedSize: for every message type there is a 6-10 byte input on which deserialize() never returns (length of an unknown field wraps the read index to 0). Proved: termination for buffers that never move backwards, for the fixed buffer when no length wraps, and for nested messages (sections).

Theorems: `C28_termination_refuted`, `C28_termination_partial`, `C28_termination_fixed_partial`, `C28_termination_section_partial`.

### C29 Truncated messages are detected

How: `SpecRead.v` describes case by case what any byte string does; the decoder is proved to follow it and the description is proved total; the properties are its consequences.

Status: **partial**. False of the code at three places (inside a tag, a nested message, a packed field), each proved for all inputs. Proved: at every other place of every valid encoding END_OF_BUFFER is returned; beginnings ending inside an unknown length-delimited record excluded (C26).

Theorems: `C29_tag_refuted`, `C29_nested_refuted`, `C29_packed_refuted`, `C29_prefix_partial`, `C29_serialized_partial`, `C29_flat_partial`.

### C30 String/bytes length never exceeds capacity

How: induction over histories of API calls: every legal call keeps the object valid and has its specified effect on what the getters show (`acall`, `SpecApi.v`).

Status: **proved**. All capacities and histories of legal calls on the field; fields inside messages: C27_reachable. Decoding into the field: C33. Assignment between capacities drops the error: a value that does not fit is silently not copied (C30_assign_other_capacity).

Theorems: `C30_length`, `C30_set`, `C30_calls`, `C30_assign_other_capacity`.

### C31 The C-string accessor agrees with the stored string

How: induction over histories of API calls: every legal call keeps the object valid and has its specified effect on what the getters show (`acall`, `SpecApi.v`).

Status: **partial**. False of the code: set(ptr,len) with fewer characters leaves the tail of the old value visible, and a full-length string is not terminated (both for all values). Proved: the exact condition (a 0 behind the content), and agreement right after set(const char*), clear(), decode and set(ptr,len) on a new or cleared field, for strings shorter than the capacity.

Theorems: `C31_cstring_refuted`, `C31_cstring_set_partial`, `C31_cstring_clear_partial`, `C31_cstring_decode_partial`, `C31_exactly_partial`, `C31_full_refuted`, `C31_shorter_refuted`, `C31_set_new_partial`.

### C32 Assigning a C string stores its longest fitting prefix

How: induction over histories of API calls: every legal call keeps the object valid and has its specified effect on what the getters show (`acall`, `SpecApi.v`).

Status: **proved**. Memory behind the pointer is a list whose end may not be passed, so over-reads would be UB.

Theorems: `C32_set_cstring`, `C32_null`.

### C33 String/bytes decode is all-or-nothing on length

How: `SpecRead.v` describes case by case what any byte string does; the decoder is proved to follow it and the description is proved total; the properties are its consequences.

Status: **proved**. All capacities, lengths, payloads; plain and optional fields, oneof members (a refused one leaves the oneof unset, C38) and elements of repeated fields (a refused one: C73).

Theorems: `C33_oneof_exact`, `C33_oneof_refused`, `C33_element_exact`, `C33_exact`, `C33_too_long`, `C33_cut`.

### C34 Repeated field behaves as a bounded list

How: induction over histories of API calls: every legal call keeps the object valid and has its specified effect on what the getters show (`acall`, `SpecApi.v`).

Status: **proved**. All element types, capacities and histories. Elements skipped by an indexed write behind the end are unspecified (acall).

Theorems: `C34_history`, `C34_call`, `C34_get`, `C34_copy`, `C34_copy_smaller`.

### C35 Decoded repeated messages do not depend on history

How: induction over histories of API calls: every legal call keeps the object valid and has its specified effect on what the getters show (`acall`, `SpecApi.v`).

Status: **partial**. False of the code: slots behind get_length() keep old content after set_data()/assignment, and decoding merges into them; C35_leftover_refuted shows it for every class with a repeated message field. Proved for objects without such left-overs, and that every history of legal calls (decoding arbitrary bytes included) without a shortening set_data()/assignment leaves none.

Theorems: `C35_history_refuted`, `C35_history_partial`, `C35_careful_partial`, `C35_no_copying_partial`, `C35_leftover_refuted`.

### C36 Optional presence flags are independent

How: induction over histories of API calls: every legal call keeps the object valid and has its specified effect on what the getters show (`acall`, `SpecApi.v`).

Status: **proved**. Any number of optional fields, any history. Decode: one record of the field sets its flag and no other (clean objects); any input from any buffer never resets a flag.

Theorems: `C36_presence`, `C36_presence_new`, `C36_presence_decode`, `C36_presence_kept`.

### C37 At most one oneof member is set

How: induction over histories of API calls: every legal call keeps the object valid and has its specified effect on what the getters show (`acall`, `SpecApi.v`).

Status: **proved**. Any history. Scalar oneof members have set_ only; decode: one record of the member, on clean objects.

Theorems: `C37_at_most_one`, `C37_most_recent`, `C37_value`, `C37_decode`.

### C38 A failed oneof decode leaves the oneof unset

How: `SpecRead.v` describes case by case what any byte string does; the decoder is proved to follow it and the description is proved total; the properties are its consequences.

Status: **proved**. Every malformed payload of every member type, every previous state, and a wrong wire type. C38_any_buffer: for every buffer without any assumption about it, in terms of the switch of deserialize().

Theorems: `C38_payload`, `C38_wiretype`, `C38_bounded`, `C38_any_buffer`.

### C39 Copying a message copies every observable value

How: induction over histories of API calls: every legal call keeps the object valid and has its specified effect on what the getters show (`acall`, `SpecApi.v`).

Status: **proved**. All types, destination reached by any history, any valid source. Self-assignment and aliasing: C66.

Theorems: `C39_assign`, `C39_copy_construct`.

### C40 clear() restores the default message

How: induction over histories of API calls: every legal call keeps the object valid and has its specified effect on what the getters show (`acall`, `SpecApi.v`).

Status: **proved**. All types, all valid objects, any writer.

Theorems: `C40_clear`.

### C41 Fields dropped for recursion do not disturb the others

How: `SpecRead.v` describes case by case what any byte string does; the decoder is proved to follow it and the description is proved total; the properties are its consequences.

Status: **partial**. False of the code: only the tag is skipped, the body is read as fields of the message. Proved for bodies that consist of unknown records.

Theorems: `C41_dropped_refuted`, `C41_empty_refuted`, `C41_partial`.

### C42 Repeated scalars decode in packed and unpacked form

How: `SpecRead.v` describes case by case what any byte string does; the decoder is proved to follow it and the description is proved total; the properties are its consequences.

Status: **partial**. False of the code: unpacked records return INVALID_WIRETYPE (proved for all types and states). Packed records decode.

Theorems: `C42_unpacked_refuted`, `C42_packed_partial`.

### C43 A wire type mismatch is reported

How: `SpecRead.v` describes case by case what any byte string does; the decoder is proved to follow it and the description is proved total; the properties are its consequences.

Status: **proved**. All fields, wrong wire types, previous records, and the non-existent wire types 6 and 7.

Theorems: `C43_wiretype`, `C43_oneof`, `C43_reserved`.

### C44 Field number zero is rejected

How: `SpecRead.v` describes case by case what any byte string does; the decoder is proved to follow it and the description is proved total; the properties are its consequences.

Status: **proved**. All wire types and previous records.

Theorems: `C44_zero`.

### C45 The write path never reports success after a refused byte

How: one induction over the message type: on any conforming write buffer serialize() appends a prefix of the specification encoding `enc` and succeeds iff all of it was accepted.

Status: **partial**. False for buffers that recover after refusing a byte (C45_varint_refuted: the exact rule, for every number, buffer and place); proved for all sticky buffers. C45_observes: recording the refusals does not change the outcome.

Theorems: `C45_refused_byte_refuted`, `C45_varint_refuted`, `C45_observes`, `C45_refused_byte_partial`.

### C46 Sub-message decoding is confined to its length

How: weak contract (`reader_safe`): induction over the message type and the loop bound, for arbitrary bytes.

Status: **partial**. Proved for complete payloads (any content). Refuted for payloads cut short by the end of the buffer: nested decoding succeeds with bytes left, for every cut nested message that ends in an unknown record running to its announced end (C46_cut_refuted). Payloads cut short by the end of the buffer: proved that decoding ends, takes a prefix of what is there, refuses strings and bytes and leaves nothing of packed numbers (C46_cut_partial, C46_cut_repeated_partial); only messages can be taken for complete with bytes left.

Theorems: `C46_cut_refuted`, `C46_cut_partial`, `C46_cut_repeated_partial`, `C46_confined_partial`, `C46_confined_repeated_partial`, `C46_confined_refuted`.

### C47 Decoding then re-encoding is stable

How: relational merge semantics (`mdec`, `padded`) in `Spec.v`; the decoder is proved to follow it by mutual induction on the derivation; `enc` is shown to be derivable.

Status: **proved**. All types, all well-formed encodings.

Theorems: `C47_reencode`.

### C48 Raw wire formatter functions agree with the field classes

How: equality of model functions on every write buffer.

Status: **proved**. All scalar types; the enum reader, which generated code does not call, on all byte strings.

Theorems: `C48_raw_equals_field`, `C48_enum_reader`.

### C49 to_string stays within the supplied buffer

How: `to_string()` over a view with a memory model that counts characters behind the end; the text is described by `layout`, JSON by a grammar (`SpecToString.v`).

Status: **partial**. False of the code. C49_fits_partial: a view with room for the text and a terminator (exactly these characters are written); C49_exact_partial: a view as long as the text. C49_overrun_refuted: every view at least three characters shorter at the end of the array makes to_string write outside it; C49_view_refuted: one or two shorter, the view returned is outside; C49_full_string_refuted: a string filling its array is read beyond its end.

Theorems: `C49_fits_partial`, `C49_exact_partial`, `C49_overrun_refuted`, `C49_view_refuted`, `C49_full_string_refuted`.

### C50 Generated types declare every template parameter they use

How: the passes of the generator over arbitrary requests; scoping and well-formedness of the written classes in `SpecGenerator.v`; messages whose names continue other names in `SpecLonger.v`.

Status: **partial**. Declared: C50_declared_exact says exactly when (an equivalence). It fails for every repeated message field of given length whose element class is a template (C50_repeated_refuted) and for every single field with the type of an enclosing message that is a template (C50_enclosing_refuted); C50_declared_partial is the rest, also with field names that clash. Once: C50_once_exact says exactly when (an equivalence): when no two open lengths get the same name; C50_once_partial gives a condition on the field names, C50_once_refuted: every such pair of lengths is declared twice. C50_parameters (the parameters are the open lengths, one for each, as an inductive definition over the request, SpecParams.v), C50_template and C50_arguments hold in full. The generator is modelled in Generator.v (ProtoFile.py, TypeDefinitions.py, Field.py, Oneof.py, main.py).

Theorems: `C50_declared_partial`, `C50_repeated_refuted`, `C50_enclosing_refuted`, `C50_declared_exact`, `C50_once_partial`, `C50_once_refuted`, `C50_parameters`, `C50_once_exact`, `C50_template`, `C50_arguments`.

### C51 Integer fields accept every legal varint

How: `SpecRead.v` describes case by case what any byte string does; the decoder is proved to follow it and the description is proved total; the properties are its consequences.

Status: **partial**. False of the code: uint32 and enum refuse varints of more than five bytes, in fields, oneofs and packed lists. Proved for all other integer types, and for up to five bytes.

Theorems: `C51_oneof_refuted`, `C51_packed_refuted`, `C51_long_refuted`, `C51_varint_partial`.

### C52 A rejected message leaves a well-defined object

How: `SpecRead.v` describes case by case what any byte string does; the decoder is proved to follow it and the description is proved total; the properties are its consequences.

Status: **partial**. False over ReadBufferFixedSize for input that ends inside an unknown length-delimited record (C26): its payload may change many fields. Proved for all other byte strings and every buffer, and for all byte strings and buffers that know where their bytes end. Objects without hidden left-overs in repeated message slots (C35).

Theorems: `C52_cut_unknown_refuted`, `C52_kept_partial`, `C52_bounded_partial`.

### C53 Negative int32 values are written like protobuf writes them

How: `SpecRead.v` describes case by case what any byte string does; the decoder is proved to follow it and the description is proved total; the properties are its consequences.

Status: **partial**. False of the code: five bytes, the 32-bit pattern, for every negative int32 in any plain or optional field of any message. Decoders of other implementations that sign-extend from 32 bits accept this; byte-exact comparison does not. Other values proved.

Theorems: `C53_any_field_refuted`, `C53_any_field_partial`, `C53_negative_refuted`, `C53_nonnegative_partial`.

### C54 The outcome of decoding is determined by the bytes and the visible values

How: `SpecRead.v` describes case by case what any byte string does; the decoder is proved to follow it and the description is proved total; the properties are its consequences.

Status: **partial**. False for input that ends inside an unknown length-delimited record: ReadBufferFixedSize and a buffer that knows where its bytes end decode it differently. Proved for all other byte strings and every two buffers, and for all byte strings and buffers that know where their bytes end. Objects without hidden left-overs (C35).

Theorems: `C54_two_outcomes_refuted`, `C54_every_input_partial`, `C54_bounded_partial`, `C54_same_outcome_partial`, `C54_same_bounded_partial`.

### C55 A malformed packed field is reported

How: `SpecRead.v` describes case by case what any byte string does; the decoder is proved to follow it and the description is proved total; the properties are its consequences.

Status: **partial**. False of the code: an unreadable length is taken for 0 and a cut-off last element is dropped silently. Proved: too many elements and overlong elements are reported.

Theorems: `C55_length_refuted`, `C55_partial_element_refuted`, `C55_too_many_partial`, `C55_overlong_partial`.

### C56 to_string prints the message as JSON

How: `to_string()` over a view with a memory model that counts characters behind the end; the text is described by `layout`, JSON by a grammar (`SpecToString.v`).

Status: **partial**. C56_exact: after every history with enough room, terminated strings that read back, and plain field names, the text is JSON (full grammar) for the values the getters show if and only if no string needs escaping, floats print as numbers, and in every message the first slot is printed or none is. C56_json_partial: the part that holds. C56_escape_refuted: every message with a quote, backslash or control character in a string. C56_comma_refuted: whenever the first slot is empty and another is printed the text is not JSON at all. C56_injection_refuted: the text can be JSON for other values.

Theorems: `C56_json_partial`, `C56_comma_refuted`, `C56_exact`, `C56_escape_refuted`, `C56_injection_refuted`.

### C57 Generated classes are declared before they are used

How: the passes of the generator over arbitrary requests; scoping and well-formedness of the written classes in `SpecGenerator.v`; messages whose names continue other names in `SpecLonger.v`.

Status: **partial**. For names the generator does not mix up (clear_names), C57_order_exact says exactly when (an equivalence): if the type is not an enclosing message; C57_order_partial is the same for enums too; for fields that are not repeated and have the type of a message that is not enclosing, for any names (C57_single_partial). Refuted: enclosing messages (for every request), a message whose name is the beginning of another one's (ProtoFile.py:52; C57_longer_name_refuted, for every request with such a pair of messages whose other names are plain), without a package a name that is two others written together (ProtoFile.py:122).

Theorems: `C57_order_partial`, `C57_enclosing_refuted`, `C57_order_exact`, `C57_single_partial`, `C57_longer_name_refuted`, `C57_joined_name_refuted`.

### C58 Member variables have the type of their field

How: the passes of the generator over arbitrary requests; scoping and well-formedness of the written classes in `SpecGenerator.v`; messages whose names continue other names in `SpecLonger.v`.

Status: **partial**. Classes and members: proved in full. Names: exactly right unless shadowed (C58_names, an equivalence); every shadowed name gives a member of another type (C58_shadowed_refuted). Messages named through a template: C58_scopes_refuted, an equivalence whose right-hand side can fail. C58_types_partial: everything about the type of a member outside these cases and the ones of C50 and C57.

Theorems: `C58_classes`, `C58_members`, `C58_names`, `C58_shadowed_refuted`, `C58_scopes_refuted`, `C58_types_partial`.

### C59 The generator accepts what C++ can express

How: the passes of the generator over arbitrary requests; scoping and well-formedness of the written classes in `SpecGenerator.v`; messages whose names continue other names in `SpecLonger.v`.

Status: **partial**. C59_accepts_partial and C59_enclosing_partial are equivalences: what is accepted, for clear names; the second one without any condition on types around their own message (the lengths to be given must then be finitely many, otherwise the recursion never ends). Refuted: types nested twice or deeper in the message of the field are always rejected (C59_deep_refuted, universal); so are fields inside a message with the type of a message whose name continues that of the first (C59_longer_name_refuted, universal for otherwise plain names). Missing: an equivalence for names that are not clear.

Theorems: `C59_accepts_partial`, `C59_enclosing_partial`, `C59_deep_refuted`, `C59_longer_name_refuted`, `C59_limit`.

### C60 Loading a read buffer makes exactly the loaded bytes readable

How: induction over load/read/clear calls against a tape (`SpecLoad.v`).

Status: **partial**. False without a clear() in between: set_bytes_written() keeps the read position, so after reading k bytes the first k bytes of the next load are skipped (C60_load_refuted). Proved: every history in which nothing was read since the last clear() when bytes are loaded, the exact behaviour in all other histories, and memory safety for all arguments.

Theorems: `C60_load_refuted`, `C60_load_partial`, `C60_load_keeps_position`, `C60_inside`, `C60_fill_push`, `C60_fill_copy`.

### C61 The members of generated classes do not collide

How: the names the templates declare and use, as texts, for arbitrary messages (`GenMembers.v`), against C++'s rules for names in a class.

Status: **partial**. False for many names protoc accepts. Proved: messages whose names do not get in each other's way (clear_members) and whose fields with presence are not of their own type. Refuted, each for all messages with such fields: n and get_n; names equal up to case; n and n_; keywords and the name of the message; names that the functions of the class use for something else (uint32_t, snprintf, and uint64_t when there is such a field); optional or oneof fields of the message's own type; n and clear_n, or a field called clear (these compile but call the clearing function). Only names are modelled, not types of expressions.

Theorems: `C61_names_partial`, `C61_accessor_partial`, `C61_get_refuted`, `C61_case_refuted`, `C61_underscore_refuted`, `C61_keyword_refuted`, `C61_hidden_refuted`, `C61_optional_refuted`, `C61_oneof_refuted`, `C61_clear_refuted`, `C61_clear_all_refuted`.

### C62 Comparing fields compares their values

How: the comparison operators with C++'s conversions written out, against comparison of the numbers.

Status: **partial**. False in two cases. A negative value and an unsigned field at least as wide: it is compared as value + 2^width (C62_mixed_refuted; C62_wrapped states the outcome of all six operators exactly). An integer that is no number of the floating point type it is compared with: it equals the nearest one (C62_rounding_refuted for every such integer; C62_nearest, C62_order: what the operators do then). Proved for all other pairs of types, NaN, infinities and -0.0 included. Assumed: IEEE 754 formats, round to nearest even, no excess precision.

Theorems: `C62_integers_partial`, `C62_mixed_refuted`, `C62_wrapped`, `C62_mirrored`, `C62_enum`, `C62_floats`, `C62_nan`, `C62_all_floats`, `C62_numbers_partial`, `C62_rounding_refuted`, `C62_order`, `C62_nearest`, `C62_nan_mixed`.

### C63 Including a generated header brings in what it needs, once

How: the headers (name, guard, includes) for arbitrary requests (`GenFiles.v`) and a preprocessor that reads them (`SpecFiles.v`); induction over the nesting depth of the includes.

Status: **partial**. False for some names: two files whose names differ in case or in '/' against '_' only have the same include guard, so that one is left out silently (also p-x.proto and p-y.proto, whose guards are cut at the dash); a name starting with a digit gives a guard that is no macro name; no header is written for files whose names contain those of the options file or descriptor.proto; and an include finds a namesake relative to the folder of the including file first. Proved for all other sets of files, with the library's options file and descriptor.proto among them.

Theorems: `C63_includes_partial`, `C63_guards_refuted`, `C63_dashes_refuted`, `C63_digit_refuted`, `C63_options_refuted`, `C63_descriptor_refuted`, `C63_namesake_refuted`.

### C64 A generated class has the fields its .proto declares

How: the numbers and flags the code of a class uses (`GenCode.v`); `SpecInstance.v` reads the message type off the .proto (`declared`) and off the C++ class (`instance`: name lookup, complete types, values of template parameters); both are one and the same type, by induction over the order in which the headers declare the classes (C57).

Status: **partial**. Proved for the .proto files that avoid what C50, C57, C58 and C61 refute: shadowed names, templates around types, fixed-length repeated fields of templated messages, clashing parameter names, types of enclosing messages, recursive fields that are optional or in a oneof.

Theorems: `C64_schema_partial`, `C64_legal_partial`, `C64_wire_partial`.

### C65 Sender and receiver with different versions of a .proto

How: `SpecVersions.v` defines which pairs of types are versions of one another (`version`), what the receiver should see (`carry`) and when it has room for it (`fits`); the encoding is followed record by record through `mread`, by induction on the sender's type, with one lemma each for known fields, unknown fields and members of oneofs; a member of a oneof is sent like an optional field.

Status: **proved**. A field that gets presence (it becomes optional, or moves into a oneof) is present for the receiver if the sender's value is not the default. Fields may move into oneofs, out of them and between them, as long as the members of one oneof of the receiver that the sender knows are members of one oneof of the sender, or only one. A field does not become repeated or singular between the versions; string and bytes may be exchanged.

Theorems: `C65_versions`.

### C66 Arguments that refer into the object being changed

How: `Alias.v` models a reference as a place (a sequence of accessors) that is read when the setter reads it, after has_ flags, lengths and init_ have been updated; operator= with both sides equal is modelled separately, statement by statement on one object. Proved equal to the call with a copy by induction on the two places; a member of a oneof whose rival is set is dead when it is read. Classes are finite trees, so argument and target are equal or disjoint (`C66_separate`). Pointers into a string: `AliasText.v`, with the overlap rule of memcpy and strncpy; where nothing overlaps the call is the ordinary setter on the characters behind the pointer.

Status: **partial**. False for two members of the same oneof: the setter destroys the active member before it reads its argument (C66_oneof_refuted), and for a string or bytes field set from a part of itself that overlaps its new place: memcpy and strncpy on overlapping memory (C66_overlap_refuted, C66_own_cstring_refuted, the exact rule). Everything else holds (C66_copy_partial, C66_own_bytes_partial, C66_set_data). Argument and target have the same class (strings may differ in capacity).

Theorems: `C66_oneof_refuted`, `C66_copy_partial`, `C66_set_data`, `C66_separate`, `C66_own_bytes_partial`, `C66_overlap_refuted`, `C66_own_cstring_refuted`.

### C67 Changing the scalar type of a field

How: case analysis over pairs of types with the lemmas about varints and little-endian words (C01-C05); C65 lifts the safe pairs to messages.

Status: **partial**. False for negative int32 read as int64 or uint64 (z + 2^32 is read), 64-bit numbers outside 0..2^35-1 read as uint32 or enum (OVERLONG_VARINT) and numbers outside 0..127 read as bool (one byte taken, the rest read as the next field); each proved for all such values. C67_kept_partial: everything else. Whole messages: the types of C65 may differ by the pairs that are safe for all values (always_kept).

Theorems: `C67_negative_refuted`, `C67_large_refuted`, `C67_bool_refuted`, `C67_kept_partial`.

### C68 The order of messages in a .proto does not matter

How: toposort_flatten gives the same list for dictionaries that are equal as sets (total order of strings); all messages of a scope have different positions in it, so that sorting does not depend on where they started.

Status: **proved**. toposort_flatten is a third-party function, modelled from its documentation.

Theorems: `C68_reordered`, `C68_runs`.

### C69 Generated enums have the names and numbers of the .proto

How: a lexer and parser of C++ enum definitions are the specification; the rendered text goes through them by induction on the values; indentation only adds white space.

Status: **partial**. The text always denotes the values of the .proto (C69_text, C69_field_number, in full). Not always accepted: C69_accepted_partial says exactly when; C69_negative_refuted: never with a negative number, since the type is uint32_t.

Theorems: `C69_text`, `C69_accepted_partial`, `C69_negative_refuted`, `C69_field_number`, `C69_field_number_accepted_partial`.

### C70 The functions written into a generated class act on the field they are named for

How: rendered function bodies as syntax trees over variable names, an interpreter for them, and a simulation: the variables of an object stand for a value of Schema.v (holds_value); each rendered body started from related states ends in related states, by induction on the lists of fields, oneofs and members; names of different members differ by C61.

Status: **partial**. Bodies rendered per class as statements over named variables, found by name and executed; equal to the operations of Api.v and the functions of Message.v and ToString.v, for all classes with clear names. Missing: classes in which names clash (C61 shows what happens there), which includes recursive fields with presence or in a oneof (do not compile, C61).

Theorems: `C70_programs_partial`, `C70_calls_partial`, `C70_alone_field_partial`, `C70_alone_oneof_partial`, `C70_serialize_partial`, `C70_deserialize_partial`, `C70_shows_partial`, `C70_wire_partial`, `C70_copy_partial`, `C70_assign_partial`, `C70_to_string_partial`, `C70_names_partial`.

### C71 Decoding takes time proportional to the number of bytes received

How: a potential argument: two runs side by side, one on a buffer with a counter; calls made plus twice the bytes left grows by at most one over any part of the decoder, by induction on the message type and on the rounds.

Status: **partial**. The bound 2m+1 is proved for every read buffer that does not move backwards. For ReadBufferFixedSize it is false when a length wraps the read index: ten bytes suffice for an endless run (C71_linear_fixed_refuted, as in C28); proved when none does.

Theorems: `C71_linear`, `C71_linear_fixed_refuted`, `C71_linear_fixed_partial`, `C71_observes`.

### C72 Serializing takes time proportional to the number of bytes written

How: serialize() once more with a counter threaded through the buffer and all calculators; same result as serialize() and count equal to work, by induction on the message type; bounds on work by induction; the lower bound because the size pass comes before anything is written.

Status: **partial**. False: the size of a nested message is found by serializing it into a calculator, at every level again, so every level of nesting doubles the work, and a level of repeated messages quadruples it (18 bytes nested nine deep take 218452 calls). Proved instead: the exact number of calls for every object (work), and the bound 4^depth calls per byte, and a sharper one for the calls really made on any buffer, by how lists and messages are nested (1 for flat messages, 2 and 3 with lists of numbers and strings, times 2 or 4 per level of messages). So the claim holds for each fixed type with a factor that grows exponentially with its nesting.

Theorems: `C72_linear_refuted`, `C72_twice_refuted`, `C72_four_times_refuted`, `C72_count_partial`, `C72_bound_partial`, `C72_passes_partial`.

### C73 A refused record adds no element to a repeated field

How: the refused record is traced through the decoder for any object; the other cases are consequences of the case-by-case description of decoding (SpecRead.v).

Status: **partial**. False of the code: get(index) lengthens the list before the element is decoded. A string or bytes record with an unreadable or too large length adds an element showing what that place of the array held before (an element removed with set_data() is back); a cut string or a message with an error inside adds the part that was read. Proved to hold for a full list, a message with an unreadable length, a wrong wire type, and packed fields.

Theorems: `C73_string_refuted`, `C73_old_content_refuted`, `C73_cut_refuted`, `C73_message_refuted`, `C73_full_partial`, `C73_message_length_partial`, `C73_wiretype_partial`, `C73_packed_partial`.

### C74 A message knows its buffer only by its answers

How: two runs side by side over related buffer states (a bisimulation), function by function and by induction over the message type; sections of related buffers are related.

Status: **proved**. No contract is assumed of the buffers. Bytes offered to push() are 0..255 and arguments of advance(N) uint32_t values, so the buffers need agree on these only.

Theorems: `C74_serialize`, `C74_deserialize`.

### C75 The largest message of a type can be read off the .proto

How: upper bound by induction over the type (lengths of varints are monotone); the bound is reached by an explicit object, built by recursion over the type, whose encoding a new object decodes (C20).

Status: **proved**. The one spare byte is the off-by-one of the bulk push (C11, C17).

Theorems: `C75_enough`, `C75_reached`.

### C76 The stack needed does not depend on the data

How: Stack.v: deserialize and serialize with a limit on the active calls of a generated method. C76_deserialize, C76_serialize: with a limit of at least the nesting depth of the type the outcome is that of the code, for every buffer and object (induction over the type). C76_needed: for every smaller limit there is a valid message of at most ten bytes per level that exceeds it. C76_serialize_needed: an object that shows messages nested n deep needs n active calls (the limited function gives the same outcome or runs out, and when it succeeds every nested message was visited).

Status: **proved**. Stack.v gives both functions a limit on the number of active calls; with the depth of the type as limit they are the same functions. Converse for both: deserialize() needs the depth of the type for some message, serialize() needs the depth of the object (C76_serialize_needed).

Theorems: `C76_deserialize`, `C76_serialize`, `C76_needed`, `C76_serialize_needed`.

### C77 A field object can be written and read on its own

How: C77_scalar_partial from the scalar round trip (C08) and the size (C16). C77_record: serialize_with_id() equals serialize() of a one-field message, for every buffer. C77_string_refuted: for every content, reading back what serialize() wrote fails or gives another content (the length takes at least one byte). C77_list_refuted.

Status: **partial**. False for strings and bytes (serialize() omits the length deserialize() expects) and for lists (serialize() always reports BUFFER_FULL, so serialized_size() is 0). Proved for scalars and for serialize_with_id(); for messages it is C16 and C20.

Theorems: `C77_scalar_partial`, `C77_record`, `C77_string_refuted`, `C77_list_refuted`.

### C78 The serialized bytes say which message it was

How: from the wire format (C19: the bytes are a function of what the getters show, up to the sign of plain zeros) and the round trip (C20: decoding gives back the getters).

Status: **proved**. Holds in full, for buffers with enough room and encodings below 4 GiB.

Theorems: `C78_histories`, `C78_same_bytes`.

### C79 The order of the fields in the input does not matter

How: records of different fields commute under the specification's merge (each changes its own slot only), so by induction on the permutation and on the nesting depth the merge has the same result; the decoder computes the merge (C22).

Status: **proved**. Holds in full for well-formed input (the specification's merge) and objects without leftovers from earlier repeated messages (C35).

Theorems: `C79_order`.

### C80 Single elements of strings, bytes fields and lists

How: reading from the invariant length <= capacity = array size; growing by induction on the calls with the invariant that everything behind the length is in the default state; the counterexample computes the array after two set()/set_data() calls.

Status: **partial**. Reading: full. Growing: false. Content replaced by something shorter comes back when a later element is written (C80_gap_bytes_refuted, C80_gap_list_refuted, for every old and new content). True for objects that were only grown since construction or clear() (C80_grown_*_partial).

Theorems: `C80_read_bytes`, `C80_read_list`, `C80_gap_bytes_refuted`, `C80_gap_list_refuted`, `C80_grown_bytes_partial`, `C80_grown_list_partial`.

### C81 Several messages in one buffer, each with its length in front

How: writing by composing the outcome of the length and of serialize() over the list; reading by induction on the list, with the invariant that a section has given out a prefix of its window, so that skipping what it still reports ends exactly behind the window; good messages by the merge theorem on a section.

Status: **partial**. Writing, reading and the round trip: full. The program itself (Stream.v) is client code, not part of the repository. The last clause is false: a stream cut at the end of any record inside a message is accepted as a complete message (C81_cut_refuted, for all messages and cuts), because ReadBufferSection shrinks to what the buffer has.

Theorems: `C81_write`, `C81_read`, `C81_round_trip`, `C81_cut_refuted`.

### C82 A program with an older version of the message in between

How: the version theorem of C65 for each hop; then, field by field, carrying a value between equal types changes nothing and normalising twice is normalising once (both by induction on the type).

Status: **partial**. The first clause is false of the code for all types and objects: there is no store for unknown fields, so the receiver finds the default value, and no such member of a oneof is ever set (C82_unknown_lost_refuted). The second clause is proved for the fields that sender and relay declare alike outside oneofs, of any type, also nested messages and lists (C82_known_kept_partial), and for the oneofs that they declare alike (C82_oneof_kept_partial); for everything else C82_both_hops_partial gives the exact value the receiver sees.

Theorems: `C82_unknown_lost_refuted`, `C82_known_kept_partial`, `C82_oneof_kept_partial`, `C82_both_hops_partial`.

### C83 References that are kept

How: a model of calls through a place without the effects of the accessors; induction on the place shows that where the object shows something the accessors have no effect of their own; induction on the calls with the specification of single calls (SpecApi) shows that what is shown stays shown.

Status: **partial**. False of the code in two cases, each proved for all objects and places. A reference into a oneof member that is no longer the active one refers to a destroyed object: any use is undefined, and this is the only way a use can be (C83_switched_refuted). After clear_f(), clear() or a shorter assignment the reference to an optional field or a list element still works, but the write is not shown and comes back as stale content at the next access (C83_hidden_refuted). As long as the getters show something at the place the claim holds (C83_shown_partial), and that is kept by all calls that do not clear, assign, replace or decode the part or anything around it nor switch a oneof around it (C83_kept_partial).

Theorems: `C83_switched_refuted`, `C83_hidden_refuted`, `C83_shown_partial`, `C83_kept_partial`.

### C84 A record changes only the field it names

How: frame property of one round of the loop (induction-free, any buffer); the contents of the fixed-size buffer and its write index are an invariant of decoding (decoder_safe); every tag read is a slice of the contents; induction on the rounds.

Status: **proved**. Proved for every input. A tag may occur anywhere in the bytes, also inside the payload of another record: that payloads can be read as tags is the subject of C25, C26, C41 and C46.

Theorems: `C84_unmentioned`, `C84_none_mentioned`, `C84_one_record`, `C84_flags`.

### C85 Receiving a message twice

How: a sequence of records is a sequence of steps per field and per oneof, in any class (projection and assembly); per place: the payloads of a plain or optional field decode from their own result to the same result by induction on the type; for a oneof either only one member is named or what was there before does not matter; a list appends the same elements. Then C22 twice.

Status: **proved**. A class with a repeated field inside a nested message is not covered by C85_lists: there the second reception may append to the nested list. If the elements do not fit a second time the second reception fails (C34, C55_too_many). C85_parts: any class, lists inside messages included, when the second reception is well-formed too - the parts without lists are unchanged and every repeated field at the top gets the same elements again.

Theorems: `C85_twice`, `C85_lists`, `C85_parts`.

### C86 Updating an object with what another one sends

How: by induction on the class: the written records of each field act on the receiver's field as the specification `merge` says, starting from any value; fields and oneofs are put together as in C65; laws of `merge` (neutral element, norm) as a check of the specification

Status: **proved**. The receiver is clean in the sense of C22 (unused slots of repeated messages hold default messages). In the ARRAY_FULL case the theorem says only that the object stays valid; what it shows then is C52 and C84.

Theorems: `C86_merge`, `C86_ends`.

### C87 Updates that are collected on the way

How: `merge` is associative on values of the right shape when no oneof has a message member; with C86 for each of the four receptions

Status: **proved**. The exception (C87_members) is the same in the protobuf libraries: a switch of the oneof in between is lost by collecting.

Theorems: `C87_collected`, `C87_members`.

### C88 Objects that talk to each other hold what the calls and messages say

How: An executable specification of each public mutator on the values the getters show; a relation for courses of events over a list of objects; induction over the events with an invariant of the objects, using the theorems on single calls, on decoding and on merging.

Status: **proved**. effect (SpecTalk.v) is an executable description of every call in terms of the getters' values; talk puts calls, copies and messages together. Proved by induction over the events with the invariant that objects are well-formed, tidy and leave nothing behind (wt, tidy, clean), from the theorems about single calls and C86.

Theorems: `C88_conversation`, `C88_goes_on`.

### C89 An object is updated by what a program with another version of the .proto file sends

How: SpecUpdate.v states what arrives as a fold over the sender's fields; UpdateProofs.v proves by induction on the sender's type and over its fields that reading the encoding performs this fold (mread, SpecRead.v), and uses decode_reads to pass to the model's deserialize. The agreement with C65 and C86 follows because deserialize is a function.

Status: **proved**. updated (SpecUpdate.v) lets the fields of the sender arrive one after the other. C89_agrees ties it to the specifications of C65 (carry) and C86 (merge).

Theorems: `C89_update`, `C89_agrees`.

### C90 Larger lengths change nothing but what had no room

How: SpecWider.v relates the two types. Decoding: by mutual induction over mread (SpecRead.v) every derivation for the smaller class that does not end in ARRAY_FULL is one for the larger class; read_total and decode_reads pass to the model's deserialize. Encoding: by induction on the type, the two serialize functions are equal on objects that show the same.

Status: **proved**. Not for setters: assigning a string that is too long truncates it or is refused (C30, C32). On errors other than ARRAY_FULL the values may differ in one case only, an element that a repeated string refuses (see SpecRead.v).

Theorems: `C90_decode`, `C90_bounded`, `C90_encode`, `C90_buffers`.

### C91 The header of a .proto file does not depend on what else is generated

How: Registering a definition reads the table only at the messages its fields refer to, and a definition is registered successfully only after these (register_same, register_ready); by induction on the position in the request the final tables agree on the files in common (runs_agree), hence get_templates and the classes do. For fewer files, the run of the larger request is followed step by step (register_fewer).

Status: **proved**. About the declarations (namespaces, enums, classes, template parameters, members) that Generator.v models, as for C50 and C57-C59. Needs neither imports first nor the absence of fields with the type of an enclosing message.

Theorems: `C91_header`, `C91_fewer`.

### C92 Updating .proto files and renaming things in them

How: Induction on the declared type: an allowed update of the files makes the declared types versions of each other (update_version), a renaming makes them equal up to lengths (renamed_like), on which encodings do not depend (like_enc). Then C70 (generated code = model) and the proof of C65.

Status: **proved**. C65 is about types; this is about .proto files and the functions written into the generated classes (C70), which is why names matter at all. Objects are built with the generated functions (valid_object); values with negative zeros are read as C21 says (norm).

Theorems: `C92_update`, `C92_renamed`.

### C93 Programs with different versions of the .proto files keep each other up to date

How: SpecPrograms.v has one relation for what the generated code does (happens) and one for what is to be expected (expected). Invariant: every object holds a well-typed value with nothing in unused list slots, which shows what is known. One lemma per kind of event: calls by C70 and the effect function of C88, messages by C89, whose condition on types is derived from the .proto files by induction on the declared type (in_step_compatible).

Status: **proved**. Puts together C70 (generated functions), C88 (conversations), C89 (updates from other versions) and C92 (.proto files). Bytes that no object sent are not part of the events here; C88 has them for one class.

Theorems: `C93_programs`, `C93_go_on`.

### C94 protoc writes one header for each .proto file, or reports an error

How: GenPlugin.v models the plugin with the response that is filled step by step and exceptions that leave it half filled; SpecPlugin.v says what protoc does with a response. The loop over the files is related to generate of Generator.v by induction; the selection of files to the expected one from the form of the names; the headers' names differ because the extension is removed from distinct names.

Status: **partial**. C94_headers_partial: names of the usual form; connects what protoc writes with the function that C50, C57-C59, C61, C64, C68-C70 and C91 are about. C94_says_proto2: a descriptor whose syntax is "proto2" is refused. C94_proto2_refuted: protoc leaves the syntax of proto2 files empty, so the check never applies and proto2 files get the headers of proto3 files (their optional and required fields lose their presence, their lists are read and written packed). C94_extension_refuted: for two files whose names differ in the extension only, nothing can be written. Files whose names contain those of the two special files: C63.

Theorems: `C94_headers_partial`, `C94_says_proto2`, `C94_proto2_refuted`, `C94_extension_refuted`.

### C95 An object that was received needs no more room than the bytes received

How: Mutual induction over the relation of all outcomes of decoding (SpecRead.v): the encoding of the value after a record is at most as much longer as the record; the canonical varint is a shortest one, and the length of varint (a + b) is at most that of varint a plus that of varint b, which covers the length prefixes of messages and lists that grow. Transferred to objects with C54 and C17.

Status: **partial**. C95_received_room_refuted: with ReadBufferFixedSize an unknown record whose length wraps the read index (C28) takes it back to bytes already passed; they are stored a second time, and 10 bytes received give an object of 12. C95_received_room_partial: all bytes with buffers that know their end (sections, or any user buffer that does), all buffers when the input does not end in the middle of an unknown record. C95_received_room_fresh_partial: the same for fresh objects. C95_received_room_encoding_partial: every encoding, every buffer. Missing: ReadBufferFixedSize with an input that ends in the middle of an unknown record and whose length does not wrap.

Theorems: `C95_received_room_refuted`, `C95_received_room_partial`, `C95_received_room_fresh_partial`, `C95_received_room_encoding_partial`.

### C96 Calls on different parts of an object can be made in any order

How: Every call about a part, and every record that is received, is reduced to a change of that part and of its presence flag; changes of the flags are changes of bits and commute, also within one word; changes of elements commute because the length becomes the larger of the two indexes plus one. Received bytes: induction over the records, every tag read is mentioned (C84). Induction over independent, then over rearrangements; traces are sorted by moving the first call of a part to the front.

Status: **proved**. Exact equality of the objects. The relation independent and the rearrangements are in SpecCalls.v. Calls on two members of one oneof, and add() on the same list, are about the same part (C96_members_matter).

Theorems: `C96_two_calls`, `C96_histories`, `C96_by_part`.

### C97 The lengths and sizes that lists, strings and bytes report

How: The state of a list after any history has a length between 0 and the capacity (C27, C34); the products are then below 2^32 and not reduced. Room: the rule for add() of C34.

Status: **partial**. False for arrays of 4 GiB and more, possible on 64-bit systems: the product does not fit into uint32_t and the size reported is smaller (C97_large_refuted, for every such list). Proved for all others. sizeof(DATA_TYPE) is a parameter.

Theorems: `C97_list_partial`, `C97_room_partial`, `C97_large_refuted`, `C97_text`.

## Trusted base

* Coq 8.16.1's kernel (including `vm_compute`, used in examples and some computations).
* `Print Assumptions` reports **"Closed under the global context"** for every property theorem: no axioms,
  neither of the standard library nor of our own. `coqchk -o` on all the
  `Properties*` modules agrees: "Axioms: <none>", no type-in-type, no unsafe fixpoints, no assumed positivity.
  A check of all the modules together also loads parts of the standard library distribution that no theorem uses,
  and then lists the seven axioms of `Coq.ssr.ssrunder.Under_rel`: `Under_rel`, `Under_rel_from_rel`,
  `Under_relE`, `Over_rel`, `over_rel`, `over_rel_done`, `under_rel_done`.
* The reading of the sources: each definition of the model cites the file and lines it models and names its
  simplifications. Nothing connects the model to the C++ or Python text mechanically.
* The specification files, as the meaning of the English properties.
* Two documented third-party behaviours: `snprintf` for `%*s`, `%s` and the integer conversions (`Printf.v`;
  the text of floating-point numbers is a parameter of the theorems) and Python's `toposort_flatten`
  (`Generator.v`).
* What protoc guarantees about its request (`desc_ok`, `legal`, `protoc_ok`) and how it uses the response (`SpecPlugin.v`), and the rules of C++ that the specification files write down (name lookup, complete types, template arguments, the preprocessor, arithmetic conversions).

## Modelled

| source | model |
| --- | --- |
| `src/Errors.h`, `src/Defines.h` | `Base.v` |
| `src/WriteBufferFixedSize.h`, `src/ReadBufferFixedSize.h`, `src/ReadBufferSection.{h,cpp}`, `src/MessageSizeCalculator.h` | `Buffers.v` |
| `src/WireFormatter.h` | `Wire.v` |
| `src/Fields.{h,cpp}`, `src/FieldStringBytes.h`, `src/RepeatedField.h`, `src/RepeatedFieldFixedSize.h` | `Fields.v`, `Api.v`, `ListSize.v` |
| `src/MessageInterface.{h,cpp}`, `templates/*.h` (serialize, deserialize, clear, assign, getters and setters, presence, oneof) | `Message.v`, `Schema.v`, `Api.v` |
| `to_string` in `src/*.h` and the templates | `ToString.v`, `Printf.v` |
| `generator/EmbeddedProto/{main,ProtoFile,TypeDefinitions,Field,Oneof}.py`: order of classes, template parameters, member types, acceptance | `Generator.v` |
| the same and the templates: names declared and used in a class | `GenMembers.v` |
| the same and `templates/Header.h`: header files, include guards, includes | `GenFiles.v` |
| `generator/EmbeddedProto/main.py`: `main_plugin`, `generate_code` with its response | `GenPlugin.v` |
| the same: numbers, presence and oneofs in the code of a class | `GenCode.v` |
| `templates/TypeDefMsg.h`, `TypeOneof.h`, `*_GetSet.h`, `*_Serialize.h`, `*_Deserialize.h`: the bodies of the functions of a class, as statements over its variables | `GenBody.v` |
| `templates/TypeDefEnum.h` and the text of enums | `GenEnum.v` |
| comparison operators of `src/Fields.h` (conversions assume IEEE 754 formats, rounding to nearest even, FLT_EVAL_METHOD 0) | `Compare.v` |
| calls whose argument is a part of the object itself | `Alias.v`, `AliasText.v` |
| the functions of serialize() once more, counting the calls of push() | `Metered.v` |

## Not modelled

* Aliasing beyond C66: arguments of another class than the
  target (converting operators).
* `get_x()` of a oneof member that is not selected (undefined behaviour in C++; treated as illegal use).
* Alignment and strict aliasing of the float/integer pointer casts; concurrency; object addresses.
* The decimal text `printf` produces for floating-point numbers (a parameter).
* C++ compilation: overload resolution, template instantiation errors, the text of the headers outside the
  parts listed above, and generated comments.
* `main_cli` and `main` of the generator, its debug dump, `setup.py`, the build scripts and the tests.

## Testing of the theorems

`seeded/LOG.jsonl` records edits of the model that imitate realistic bugs, made in a copy outside `/verif`:
what was edited, the claim it breaks, the theorems that no longer prove, and the theorems that had to be
added or tightened when an edit went unnoticed.
