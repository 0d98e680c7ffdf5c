(** * Stack: the generated deserialize() and serialize() with a limit on how many of them may be active at once.
    The microcontrollers this code is meant for have a stack of fixed size; what grows on it is one frame (with a
    ReadBufferSection or a MessageSizeCalculator) for every nested message that is being read or written. *)
From Verif Require Import Base Buffers Wire Schema Fields Message.

(** templates/TypeDefMsg.h:184-236, called for nested messages by src/MessageInterface.cpp:74-90 and
    src/RepeatedField.h:364-396: as [deserialize], but when [levels] calls of a generated deserialize() are the
    most that may be active at the same time. The call that would be one too many does not return: [Fuel]. *)
Fixpoint deserialize_within (levels fuel : nat) (t : ety) {struct t} : deserializer :=
  match t with
  | EScalar sc => scalar_deserialize sc
  | EBytes _ max => bytes_deserialize max
  | EMsg fs os =>
      match levels with
      | O => fun S R v s => Fuel
      | Datatypes.S l =>
          msg_deserialize fuel (map (fun '(num, k, t) => (num, k, t, deserialize_within l fuel t)) fs)
                               (map (map (fun '(num, t) => (num, t, deserialize_within l fuel t))) os)
      end
  end.

(** templates/TypeDefMsg.h:159-182, called for nested messages by src/MessageInterface.cpp:38-71 (twice: by
    serialized_size, src/Fields.cpp:35-42, and then for the buffer) and src/RepeatedField.h:317-336: as [serialize],
    with the same limit. *)
Fixpoint serialize_within (levels : nat) (t : ety) (v : value) {struct t} : serializer :=
  match t with
  | EScalar sc => scalar_serialize sc v
  | EBytes _ _ => bytes_serialize v
  | EMsg fs os =>
      match levels with
      | O => fun S W s => Fuel
      | Datatypes.S l =>
          msg_serialize (map (fun '(num, k, t) => (num, k, t, serialize_within l t)) fs)
                        (map (map (fun '(num, t) => (num, t, serialize_within l t))) os) v
      end
  end.
