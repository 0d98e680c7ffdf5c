(** * Fields: src/Fields.h, src/Fields.cpp, src/FieldStringBytes.h, src/RepeatedField.h,
      src/RepeatedFieldFixedSize.h, the parts that read and write buffers. *)
From Verif Require Import Base Buffers Wire Schema.

(** A virtual method `Error serialize(WriteBufferInterface&) const`: it works with any buffer class.
    The type of a virtual method `Error deserialize(ReadBufferInterface&)`: the object is passed in
    and the changed object is part of the result, also when an error is returned. *)
Definition serializer : Type := forall S : Type, wops S -> S -> res (err * S).
Definition deserializer : Type := forall S : Type, rops S -> value -> S -> res (err * value * S).

(** src/Fields.cpp:35-42 Field::serialized_size and src/Fields.h:227-232. *)
Definition serialized_size (ser : serializer) : res Z :=
  let* (_, size) := ser Z calc_ops 0 in Done size.

(* ------------------------------------------------------------------------------------------- *)
(** ** FieldTemplate *)

(** src/Fields.h:339-383  serialize_<FIELDTYPE>. Serializing an indeterminate value_ is UB. *)
Definition scalar_serialize_z (sc : scalar) (z : Z) {S} (W : wops S) (s : S) : res (err * S) :=
  match sc with
  | Int32 => SerializeVarint W (u32 z) s
  | Int64 => SerializeVarint W (u64 z) s
  | UInt32 | UInt64 => SerializeVarint W z s
  | SInt32 => SerializeVarint W (ZigZagEncode 32 z) s
  | SInt64 => SerializeVarint W (ZigZagEncode 64 z) s
  | Boolean => push_bool W z s
  | Enumeration => SerializeVarint W (u32 z) s
  | Fixed32 => SerializeFixedNoTag W 32 z s
  | Fixed64 => SerializeFixedNoTag W 64 z s
  | SFixed32 => SerialzieSFixedNoTag W 32 z s
  | SFixed64 => SerialzieSFixedNoTag W 64 z s
  | FloatFixed => SerialzieFloatNoTag W z s
  | DoubleFixed => SerialzieDoubleNoTag W z s
  end.

(** src/Fields.h:146-149  FieldTemplate::serialize *)
Definition scalar_serialize (sc : scalar) (v : value) : serializer := fun S W s =>
  match v with VS z => scalar_serialize_z sc z W s | _ => UB end.

(** src/Fields.h:136-144  FieldTemplate::serialize_with_id (the flag `optional` is ignored). *)
Definition scalar_serialize_with_id (sc : scalar) (v : value) (num : Z) : serializer :=
  fun S W s => with_tag W num (scalar_wiretype sc) (scalar_serialize sc v S W) s.

(** src/Fields.h:387-436  deserialize_<FIELDTYPE>: error, and the value assigned if any. *)
Definition scalar_deserialize_z (sc : scalar) {S} (R : rops S) (s : S) : res (err * option Z * S) :=
  match sc with
  | Int32 => DeserializeInt R 32 s
  | Int64 => DeserializeInt R 64 s
  | UInt32 => DeserializeUInt R 32 s
  | UInt64 => DeserializeUInt R 64 s
  | SInt32 => DeserializeSInt R 32 s
  | SInt64 => DeserializeSInt R 64 s
  | Boolean => DeserializeBool R s
  | Enumeration => DeserializeVarint R 32 s
  | Fixed32 => DeserializeFixed R 32 s
  | Fixed64 => DeserializeFixed R 64 s
  | SFixed32 => DeserializeSFixed R 32 s
  | SFixed64 => DeserializeSFixed R 64 s
  | FloatFixed => DeserializeFloat R s
  | DoubleFixed => DeserializeDouble R s
  end.

(** src/Fields.h:151-154  FieldTemplate::deserialize *)
Definition scalar_deserialize (sc : scalar) : deserializer := fun S R v s =>
  let* (e, oz, s') := scalar_deserialize_z sc R s in
  Done (e, match oz with Some z => VS z | None => v end, s').

(* ------------------------------------------------------------------------------------------- *)
(** ** FieldStringBytes *)

(** src/FieldStringBytes.h:206-216  serialize: bulk push of data_ with length current_length_. *)
Definition bytes_serialize (v : value) : serializer := fun S W s =>
  match v with
  | VB len data =>
      let* (ok, s') := w_pushn W s data len in
      Done (if ok then NoErrors else BufferFull, s')
  | _ => UB
  end.

(** src/FieldStringBytes.h:175-204  serialize_with_id *)
Definition bytes_serialize_with_id (v : value) (num : Z) (optional : bool) : serializer :=
  fun S W s =>
  match v with
  | VB len data =>
      if (0 <? len) || optional then
        if len <=? w_get_available_size W s then
          let* (e, s1) := SerializeVarint W (MakeTag num LENDEL) s in
          let* (e, s2) := (if is_ok e then SerializeVarint W len s1 else Done (e, s1)) in
          if is_ok e && (0 <? len) then bytes_serialize v S W s2 else Done (e, s2)
        else Done (BufferFull, s)
      else Done (NoErrors, s)
  | _ => UB
  end.

(** src/FieldStringBytes.h:229-233  the while loop of deserialize; [n] is available - current_length_.
    Result: current_length_, data_, buffer. *)
Fixpoint bytes_deserialize_loop {S} (R : rops S) (n : nat) (len : Z) (data : list Z) (s : S)
  : res (Z * list Z * S) :=
  match n with
  | O => Done (len, data, s)
  | Datatypes.S n' =>
      let* (ob, s') := r_pop R s in
      match ob with
      | Some b => let* data' := aset data len b in bytes_deserialize_loop R n' (len + 1) data' s'
      | None => Done (len, data, s')
      end
  end.

(** src/FieldStringBytes.h:218-248  deserialize *)
Definition bytes_deserialize (max : Z) : deserializer := fun S R v s =>
  let* (e, on, s1) := DeserializeVarint R 32 s in
  match e, on with
  | NoErrors, Some available =>
      if available <=? max then
        let* (len, data, s2) :=
          bytes_deserialize_loop R (Z.to_nat available) 0 (zrepeat 0 max) s1 in
        Done (if len =? available then NoErrors else EndOfBuffer, VB len data, s2)
      else Done (ArrayFull, v, s1)
  | _, _ => Done (e, v, s1)
  end.

(* ------------------------------------------------------------------------------------------- *)
(** ** Elements of any type, given the virtual methods [ser] and [deser] of the element class *)

(** serialize_with_id of an element: src/Fields.h:136-144 (FieldTemplate),
    src/FieldStringBytes.h:175-204, src/MessageInterface.cpp:38-71 (messages). *)
Definition elem_serialize_with_id (t : ety) (ser : value -> serializer) (v : value) (num : Z)
    (optional : bool) : serializer := fun S W s =>
  match t with
  | EScalar sc => scalar_serialize_with_id sc v num S W s
  | EBytes _ _ => bytes_serialize_with_id v num optional S W s
  | EMsg _ _ =>
      let* size_x := serialized_size (ser v) in
      if (0 <? size_x) || optional then
        let* (e, s1) := SerializeVarint W (MakeTag num LENDEL) s in
        if is_ok e then
          let* (e, s2) := SerializeVarint W size_x s1 in
          if is_ok e then
            if size_x <=? w_get_available_size W s2
            then ser v S W s2
            else Done (BufferFull, s2)
          else Done (e, s2)
        else Done (e, s1)
      else Done (NoErrors, s)
  end.

(** Reading the length and decoding a message from a section:
    src/MessageInterface.cpp:81-87 and src/RepeatedField.h:376-382. *)
Definition deserialize_section (deser : deserializer) : deserializer := fun S R v s =>
  let* (e, on, s1) := DeserializeVarint R 32 s in
  match e, on with
  | NoErrors, Some size =>
      let* (e, v', sec) := deser (section S) (sec_ops R) v (mk_section R s1 size) in
      Done (e, v', sec_parent sec)
  | _, _ => Done (e, v, s1)
  end.

(** deserialize_check_type of an element: src/Fields.h:157-166, src/FieldStringBytes.h:250-260,
    src/MessageInterface.cpp:74-90. *)
Definition elem_deserialize_check_type (t : ety) (deser : deserializer) (w : wiretype)
  : deserializer := fun S R v s =>
  match t with
  | EScalar sc =>
      if wt_eqb (scalar_wiretype sc) w then deser S R v s else Done (InvalidWiretype, v, s)
  | EBytes _ _ => if wt_eqb LENDEL w then deser S R v s else Done (InvalidWiretype, v, s)
  | EMsg _ _ =>
      if wt_eqb LENDEL w then deserialize_section deser S R v s else Done (InvalidWiretype, v, s)
  end.

(* ------------------------------------------------------------------------------------------- *)
(** ** RepeatedField *)

(** src/RepeatedFieldFixedSize.h:119-123  get_const(index); MAX_LENGTH-1 is a uint32_t. *)
Definition rep_get_const (data : list value) (i : Z) : res value :=
  aget data (Z.min i (u32 (zlen data - 1))).

(** src/RepeatedField.h:307-315  serialize_packed. [n] is get_length() - i. *)
Fixpoint rep_serialize_packed (ser : value -> serializer) (n : nat) (i : Z) (data : list value)
    {S} (W : wops S) (s : S) : res (err * S) :=
  match n with
  | O => Done (NoErrors, s)
  | Datatypes.S n' =>
      let* x := rep_get_const data i in
      let* (e, s') := ser x S W s in
      if is_ok e then rep_serialize_packed ser n' (i + 1) data W s' else Done (e, s')
  end.

(** src/RepeatedField.h:317-336  serialize_unpacked *)
Fixpoint rep_serialize_unpacked (ser : value -> serializer) (num : Z) (n : nat) (i : Z)
    (data : list value) {S} (W : wops S) (s : S) : res (err * S) :=
  match n with
  | O => Done (NoErrors, s)
  | Datatypes.S n' =>
      let* x := rep_get_const data i in
      let* size_x := serialized_size (ser x) in
      let* (e, s1) := SerializeVarint W (MakeTag num LENDEL) s in
      let* (e, s2) := (if is_ok e then
                         let* (e, s2) := SerializeVarint W size_x s1 in
                         if is_ok e && (0 <? size_x) then ser x S W s2 else Done (e, s2)
                       else Done (e, s1)) in
      if is_ok e then rep_serialize_unpacked ser num n' (i + 1) data W s2 else Done (e, s2)
  end.

(** src/RepeatedField.h:155-201  serialize_with_id, with serialized_size_packed and
    serialized_size_unpacked (241-257). *)
Definition rep_serialize_with_id (t : ety) (ser : value -> serializer) (v : value) (num : Z)
    (optional : bool) : serializer := fun S W s =>
  match v with
  | VR len data =>
      if is_packed t then
        let* size_x := serialized_size (fun S W s =>
                         rep_serialize_packed ser (Z.to_nat len) 0 data W s) in
        if (0 <? size_x) || optional then
          let* (e, s1) := SerializeVarint W (MakeTag num LENDEL) s in
          if is_ok e then
            let* (e, s2) := SerializeVarint W size_x s1 in
            if is_ok e then
              if size_x <=? w_get_available_size W s2
              then rep_serialize_packed ser (Z.to_nat len) 0 data W s2
              else Done (BufferFull, s2)
            else Done (e, s2)
          else Done (e, s1)
        else Done (NoErrors, s)
      else
        let* size_x := serialized_size (fun S W s =>
                         rep_serialize_unpacked ser num (Z.to_nat len) 0 data W s) in
        if size_x <=? w_get_available_size W s
        then rep_serialize_unpacked ser num (Z.to_nat len) 0 data W s
        else Done (BufferFull, s)
  | _ => UB
  end.

(** src/RepeatedField.h:148-152: serialize() on a repeated field always fails. *)
Definition rep_serialize (v : value) : serializer := fun S W s => Done (BufferFull, s).

(** src/RepeatedFieldFixedSize.h:169-182  add for a FieldTemplate element. *)
Definition rep_add_scalar (len : Z) (data : list value) (x : value) : res (err * Z * list value) :=
  if len <? zlen data then
    match x with
    | VS _ => let* data' := aset data len x in Done (NoErrors, len + 1, data')
    | _ => UB
    end
  else Done (ArrayFull, len, data).

(** src/RepeatedField.h:345-353  the loop of deserialize_packed, from the first x.deserialize on.
    [x] is the local of type DATA_TYPE. *)
Fixpoint rep_packed_loop (sc : scalar) (fuel : nat) (x : value) (len : Z) (data : list value)
    {S} (R : rops S) (s : S) : res (err * Z * list value * S) :=
  match fuel with
  | O => Fuel
  | Datatypes.S fuel' =>
      let* (e, x', s1) := scalar_deserialize sc S R x s in
      if is_ok e then
        let* (e, len', data') := rep_add_scalar len data x' in
        if is_ok e then rep_packed_loop sc fuel' x' len' data' R s1
        else Done (e, len', data', s1)
      else Done (e, len, data, s1)
  end.

(** src/RepeatedField.h:338-362  deserialize_packed. The error of the length varint is overwritten:
    on failure size stays 0. *)
Definition rep_deserialize_packed (fuel : nat) (sc : scalar) : deserializer := fun S R v s =>
  match v with
  | VR len data =>
      let* (_, on, s1) := DeserializeVarint R 32 s in
      let size := match on with Some n => n | None => 0 end in
      let* (e, len', data', sec) :=
        rep_packed_loop sc fuel VIndet len data (sec_ops R) (mk_section R s1 size) in
      Done (match e with EndOfBuffer => NoErrors | _ => e end, VR len' data', sec_parent sec)
  | _ => UB
  end.

(** src/RepeatedFieldFixedSize.h:109-117  get(index) as an lvalue: the limited index and the new
    current_length_. *)
Definition rep_get (len : Z) (data : list value) (index : Z) : Z * Z :=
  let limited_index := Z.min index (u32 (zlen data - 1)) in
  (limited_index, if len <=? limited_index then limited_index + 1 else len).

(** src/RepeatedField.h:364-396  deserialize_unpacked. For a message the length is read before
    get(index) is called; for strings and bytes get(index) is evaluated first. *)
Definition rep_deserialize_unpacked (t : ety) (deser : deserializer) : deserializer := fun S R v s =>
  match v with
  | VR len data =>
      if len <? zlen data then
        let (i, len') := rep_get len data len in
        let* x := aget data i in
        match t with
        | EMsg _ _ =>
            let* (e, on, s1) := DeserializeVarint R 32 s in
            match e, on with
            | NoErrors, Some size =>
                let* (e, x', sec) := deser (section S) (sec_ops R) x (mk_section R s1 size) in
                let* data' := aset data i x' in
                Done (e, VR len' data', sec_parent sec)
            | _, _ => Done (e, v, s1)
            end
        | _ =>
            let* (e, x', s1) := deser S R x s in
            let* data' := aset data i x' in
            Done (e, VR len' data', s1)
        end
      else Done (ArrayFull, v, s)
  | _ => UB
  end.

(** src/RepeatedField.h:209-233  deserialize and deserialize_check_type *)
Definition rep_deserialize_check_type (fuel : nat) (t : ety) (deser : deserializer) (w : wiretype)
  : deserializer := fun S R v s =>
  if wt_eqb LENDEL w then
    match t with
    | EScalar sc => rep_deserialize_packed fuel sc S R v s
    | _ => rep_deserialize_unpacked t deser S R v s
    end
  else Done (InvalidWiretype, v, s).
