(** * Schema: message types produced by the generator, and the state of message objects. *)
From Verif Require Import Base.

(** The FieldTemplate instances, src/Fields.h:441-456. *)
Inductive scalar : Type :=
| Int32 | Int64 | UInt32 | UInt64 | SInt32 | SInt64 | Boolean | Enumeration
| Fixed32 | Fixed64 | SFixed32 | SFixed64 | FloatFixed | DoubleFixed.

(** The WIRETYPE template argument, src/Fields.h:441-456. *)
Definition scalar_wiretype (sc : scalar) : wiretype :=
  match sc with
  | Int32 | Int64 | UInt32 | UInt64 | SInt32 | SInt64 | Boolean | Enumeration => VARINT
  | Fixed32 | SFixed32 | FloatFixed => FIXED32
  | Fixed64 | SFixed64 | DoubleFixed => FIXED64
  end.

(** How a field appears in a generated message: plain (no presence), [optional], [repeated] with the
    MAX_LENGTH template argument of RepeatedFieldFixedSize, or left out because of a recursive
    inclusion (generator/EmbeddedProto/Field.py:65-86,555-571). *)
Inductive fkind : Type :=
| KPlain
| KOpt
| KRep (max_length : Z)
| KRecursive.

(** Element types: a FieldTemplate, a FieldString (true) / FieldBytes (false) with its MAX_LENGTH,
    or a generated message class. A message class has [fields] (typedef.fields, in declaration order)
    and [oneofs] (typedef.oneofs), generator/EmbeddedProto/TypeDefinitions.py:125-255. *)
Inductive ety : Type :=
| EScalar (sc : scalar)
| EBytes (is_string : bool) (max_length : Z)
| EMsg (fields : list (Z * fkind * ety)) (oneofs : list (list (Z * ety))).

Notation fdesc := (Z * fkind * ety)%type.
Notation odesc := (list (Z * ety)).

(** State of C++ objects.
    - [VS z]: a FieldTemplate whose value_ is z (floats: bit pattern; bool: 0/1; enum: its uint32 code).
    - [VIndet]: storage with no initialised object (inactive union storage, FieldTemplate default-initialised
      by placement new or as a local).
    - [VB len data]: FieldStringBytes: current_length_ and the whole data_ array.
    - [VR len data]: RepeatedFieldFixedSize: current_length_ and the whole data_ array.
    - [VM presence fields oneofs]: message: presence_ words, one object per field, and for each oneof
      the which_ member and the union storage. *)
Inductive value : Type :=
| VS (z : Z)
| VIndet
| VB (len : Z) (data : list Z)
| VR (len : Z) (data : list value)
| VM (presence : list Z) (fields : list value) (oneofs : list (Z * value)).

(** Number of optional fields: typedef.optional_fields. *)
Fixpoint n_optional (fs : list fdesc) : Z :=
  match fs with
  | [] => 0
  | (_, KOpt, _) :: fs' => 1 + n_optional fs'
  | _ :: fs' => n_optional fs'
  end.

(** templates/TypeDefMsg.h:377-380  presence::SIZE. *)
Definition presence_size (n_fields : Z) : Z :=
  n_fields / 32 + (if 0 <? n_fields mod 32 then 1 else 0).

(** templates/TypeDefMsg.h:382-391  presence::index, presence::mask for the i-th optional field. *)
Definition presence_index (i : Z) : Z := i / 32.
Definition presence_mask (i : Z) : Z := u32 (Z.shiftl 1 (i mod 32)).

(** has_<field>() for an optional field, templates/FieldBasic_GetSet.h:61-64. *)
Definition presence_has (pres : list Z) (i : Z) : res bool :=
  let* w := aget pres (presence_index i) in
  Done (negb (Z.land (presence_mask i) w =? 0)).

(** presence_[index] |= mask, templates/FieldBasic_GetSet.h:72. *)
Definition presence_set (pres : list Z) (i : Z) : res (list Z) :=
  let* w := aget pres (presence_index i) in
  aset pres (presence_index i) (Z.lor w (presence_mask i)).

(** presence_[index] &= ~mask, templates/FieldBasic_GetSet.h:67. *)
Definition presence_clear (pres : list Z) (i : Z) : res (list Z) :=
  let* w := aget pres (presence_index i) in
  aset pres (presence_index i) (Z.land w (u32 (Z.lnot (presence_mask i)))).

(** A default-constructed object. Scalars: the default member initialiser of the generated class
    (templates/TypeDefMsg.h:395-401 with Field.py:159-171) or value-initialisation inside the
    array of a repeated field (src/RepeatedFieldFixedSize.h:202). Strings: src/FieldStringBytes.h:281-285. *)
Definition default_field_of (k : fkind) (d : value) : value :=
  match k with
  | KPlain | KOpt => d
  | KRep max => VR 0 (zrepeat d max)
  | KRecursive => VIndet
  end.

(** The same for the object of a whole type; the presence flags are zero (templates/TypeDefMsg.h:392) and no oneof
    is set (404). *)
Fixpoint default_value (t : ety) : value :=
  match t with
  | EScalar _ => VS 0
  | EBytes _ max => VB 0 (zrepeat 0 max)
  | EMsg fs os =>
      VM (zrepeat 0 (presence_size (n_optional fs)))
         (map (fun '(_, k, t) => default_field_of k (default_value t)) fs)
         (map (fun _ => (0, VIndet)) os)
  end.

(** The variable of a field in such an object, templates/TypeDefMsg.h:395-401. *)
Definition default_field (k : fkind) (t : ety) : value := default_field_of k (default_value t).

(** Is this element type serialized packed inside a repeated field?
    src/RepeatedField.h:66-68  REPEATED_FIELD_IS_PACKED. *)
Definition is_packed (t : ety) : bool := match t with EScalar _ => true | _ => false end.
