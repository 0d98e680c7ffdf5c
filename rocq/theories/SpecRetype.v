(** * SpecRetype: a field whose scalar type is changed between two versions of a .proto file.

    The rules are those of the protobuf language guide, "Updating A Message Type". *)
From Verif Require Import Base Schema Spec.

(** int32, uint32, int64, uint64, bool and enum may be exchanged for one another; so may sint32 and sint64, fixed32
    and sfixed32, fixed64 and sfixed64. *)
Definition group (sc : scalar) : Z :=
  match sc with
  | Int32 | UInt32 | Int64 | UInt64 | Boolean | Enumeration => 1
  | SInt32 | SInt64 => 2
  | Fixed32 | SFixed32 => 3
  | Fixed64 | SFixed64 => 4
  | FloatFixed => 5
  | DoubleFixed => 6
  end.
Definition interchangeable (sc sc' : scalar) : Prop := group sc = group sc'.

(** The receiver has the sender's number "as if you had cast the number to that type in C++". Floats are left alone. *)
Definition cast (sc' : scalar) (z : Z) : Z :=
  match sc' with
  | Int32 | SInt32 | SFixed32 => to_signed 32 z
  | Int64 | SInt64 | SFixed64 => to_signed 64 z
  | UInt32 | Enumeration | Fixed32 => z mod 2 ^ 32
  | UInt64 | Fixed64 => z mod 2 ^ 64
  | Boolean => if z =? 0 then 0 else 1
  | FloatFixed | DoubleFixed => z
  end.

(** The guide says nothing about an sint64 that does not fit into an sint32. *)
Definition promised (sc sc' : scalar) (z : Z) : Prop :=
  match sc, sc' with SInt64, SInt32 => - 2 ^ 31 <= z < 2 ^ 31 | _, _ => True end.

(** The three cases that go wrong. *)
Definition loses_sign (sc sc' : scalar) (z : Z) : Prop :=
  match sc, sc' with Int32, (Int64 | UInt64) => z < 0 | _, _ => False end.
Definition too_large (sc sc' : scalar) (z : Z) : Prop :=
  match sc, sc' with (Int64 | UInt64), (UInt32 | Enumeration) => z < 0 \/ 2 ^ 35 <= z | _, _ => False end.
Definition not_one_byte (sc sc' : scalar) (z : Z) : Prop := sc' = Boolean /\ (z < 0 \/ 128 <= z).

(** The pairs for which nothing goes wrong, whatever the value. *)
Definition always_kept (sc sc' : scalar) : bool :=
  match sc, sc' with
  | Boolean, (Int32 | UInt32 | Int64 | UInt64 | Boolean | Enumeration) => true
  | (UInt32 | Enumeration), (Int32 | UInt32 | Int64 | UInt64 | Enumeration) => true
  | Int32, (Int32 | UInt32 | Enumeration) => true
  | (Int64 | UInt64), (Int32 | Int64 | UInt64) => true
  | SInt32, (SInt32 | SInt64) | SInt64, SInt64 => true
  | (Fixed32 | SFixed32), (Fixed32 | SFixed32) | (Fixed64 | SFixed64), (Fixed64 | SFixed64) => true
  | FloatFixed, FloatFixed | DoubleFixed, DoubleFixed => true
  | _, _ => false
  end.
