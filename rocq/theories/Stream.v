(** * Stream: a program that uses the library to write and read messages one after the other.

    Protobuf messages do not say where they end. The usual way to put several of them into one buffer or send them
    over one connection is to write the length of each in front of it. The functions below are not in /repo; they are the
    obvious program that does this with the public API: MessageInterface::serialized_size() and serialize(),
    WireFormatter::SerializeVarint()/DeserializeVarint() and ReadBufferSection. *)
From Verif Require Import Base Buffers Wire Schema Fields Message.

(** src/Fields.cpp:35-42 serialized_size(), src/WireFormatter.h:523-541 SerializeVarint(), templates/TypeDefMsg.h:159-182
    serialize(). *)
Definition write_framed (t : ety) (v : value) : serializer := fun S W s =>
  let* size := serialized_size (serialize t v) in
  let* (e, s1) := SerializeVarint W size s in
  if is_ok e then serialize t v S W s1 else Done (e, s1).

(** All messages of the list, up to the first error. *)
Fixpoint write_stream (l : list (ety * value)) {S} (W : wops S) (s : S) : res (err * S) :=
  match l with
  | [] => Done (NoErrors, s)
  | (t, v) :: l' =>
      let* (e, s1) := write_framed t v S W s in
      if is_ok e then write_stream l' W s1 else Done (e, s1)
  end.

(** Reading: the length (src/WireFormatter.h:548-571 DeserializeVarint()), a ReadBufferSection of this length (src/ReadBufferSection.cpp:39-45), deserialize() from the
    section, and then section.advance(section.get_size()) (src/ReadBufferSection.cpp:78-88) to go to the end of the
    message, which is needed when deserialize() gave up before. *)
Definition read_framed (fuel : nat) (t : ety) : deserializer := fun S R v s =>
  let* (e, on, s1) := DeserializeVarint R 32 s in
  match e, on with
  | NoErrors, Some size =>
      let* (e, v', sec) := deserialize fuel t (section S) (sec_ops R) v (mk_section R s1 size) in
      let* (_, sec') := r_advance_n (sec_ops R) sec (r_get_size (sec_ops R) sec) in
      Done (e, v', sec_parent sec')
  | _, _ => Done (e, v, s1)
  end.

(** One message for each of the given objects, whether or not the messages before were accepted. *)
Fixpoint read_stream (fuel : nat) (objects : list (ety * value)) {S} (R : rops S) (s : S) : res (list (err * value) * S) :=
  match objects with
  | [] => Done ([], s)
  | (t, v) :: objects' =>
      let* (e, v', s1) := read_framed fuel t S R v s in
      let* (l, s2) := read_stream fuel objects' R s1 in
      Done ((e, v') :: l, s2)
  end.
