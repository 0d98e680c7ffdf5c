(** * Wire: src/WireFormatter.h. *)
From Verif Require Import Base Buffers.

(** src/WireFormatter.h:53,56 *)
Definition VARINT_SHIFT_N_BITS : Z := 7.
Definition VARINT_MSB_BYTE : Z := 128.

(** src/WireFormatter.h:556-560  N_BYTES_IN_VARINT = ceil(digits / 7). The constexpr float division
    and ceil are replaced by the integer ceiling (5 for 32 bits, 10 for 64, as the code's comment
    states). *)
Definition n_bytes_in_varint (w : Z) : Z := (w + 6) / 7.

(** src/WireFormatter.h:94-104  ZigZagEncode for INT_TYPE of [w] bits: the shift right of the signed
    value is arithmetic, then converted to unsigned; the left shift is on the unsigned value. *)
Definition ZigZagEncode (w n : Z) : Z :=
  Z.lxor (uw w (Z.shiftl (uw w n) 1)) (uw w (Z.shiftr n (w - 1))).

(** src/WireFormatter.h:113-122  ZigZagDecode for UINT_TYPE of [w] bits. *)
Definition ZigZagDecode (w n : Z) : Z :=
  sw w (Z.lxor (Z.shiftr n 1) (uw w (uw w (Z.lnot (Z.land n 1)) + 1))).

(** src/WireFormatter.h:130-133 *)
Definition MakeTag (field_number : Z) (t : wiretype) : Z :=
  Z.lor (u32 (Z.shiftl field_number 3)) (wt_code t).

(* ------------------------------------------------------------------------------------------- *)
(** ** Writers. The result is the returned Error and the new state of the buffer. *)

Section Writers.
Context {S : Type} (W : wops S).

(** src/WireFormatter.h:529-534  the while loop of SerializeVarint. [n] bounds the iterations; the
    loop runs at most 9 times for a uint64_t. The result is (value, memory_free, buffer). *)
Fixpoint SerializeVarint_loop (n : nat) (value : Z) (memory_free : bool) (s : S)
  : res (Z * bool * S) :=
  if (VARINT_MSB_BYTE <=? value) && memory_free then
    match n with
    | O => Fuel
    | Datatypes.S n' =>
        let* (ok, s') := w_push W s (u8 (Z.lor value VARINT_MSB_BYTE)) in
        SerializeVarint_loop n' (Z.shiftr value VARINT_SHIFT_N_BITS) ok s'
    end
  else Done (value, memory_free, s).

(** src/WireFormatter.h:522-539. Note that the result of the loop's pushes is overwritten by the
    result of the last push (line 535). *)
Definition SerializeVarint (value : Z) (s : S) : res (err * S) :=
  let* (value', _, s') := SerializeVarint_loop 10 value true s in
  let* (ok, s'') := w_push W s' (u8 value') in
  Done (if ok then NoErrors else BufferFull, s'').

(** src/WireFormatter.h:152-156  loop of SerializeFixedNoTag; [n] is the number of bytes left. *)
Fixpoint SerializeFixed_loop (n : nat) (value i : Z) (s : S) : res (bool * S) :=
  match n with
  | O => Done (true, s)
  | Datatypes.S n' =>
      let* (ok, s') := w_push W s (u8 (Z.land (Z.shiftr value i) 255)) in
      if ok then SerializeFixed_loop n' value (i + 8) s' else Done (false, s')
  end.

(** src/WireFormatter.h:141-158  SerializeFixedNoTag for a [w]-bit UINT_TYPE. *)
Definition SerializeFixedNoTag (w value : Z) (s : S) : res (err * S) :=
  let* (ok, s') := SerializeFixed_loop (Z.to_nat (w / 8)) value 0 s in
  Done (if ok then NoErrors else BufferFull, s').

(** src/WireFormatter.h:161-170 *)
Definition SerialzieSFixedNoTag (w value : Z) (s : S) : res (err * S) :=
  SerializeFixedNoTag w (uw w value) s.

(** src/WireFormatter.h:173-188  SerialzieFloatNoTag / SerialzieDoubleNoTag: the float is
    represented by its bit pattern, so the pointer cast is the identity. *)
Definition SerialzieFloatNoTag (bits : Z) (s : S) : res (err * S) := SerializeFixedNoTag 32 bits s.
Definition SerialzieDoubleNoTag (bits : Z) (s : S) : res (err * S) := SerializeFixedNoTag 64 bits s.

(** buffer.push(byte) ? NO_ERRORS : BUFFER_FULL  (src/WireFormatter.h:305-306, src/Fields.h:360). *)
Definition push_bool (v : Z) (s : S) : res (err * S) :=
  let* (ok, s') := w_push W s (if v =? 0 then 0 else 1) in
  Done (if ok then NoErrors else BufferFull, s').

(** "write the tag, and if that succeeded run [k]": the shape of src/WireFormatter.h:196-320. *)
Definition with_tag (field_number : Z) (t : wiretype) (k : S -> res (err * S)) (s : S)
  : res (err * S) :=
  let* (e, s') := SerializeVarint (MakeTag field_number t) s in
  if is_ok e then k s' else Done (e, s').

(** src/WireFormatter.h:196-207 *)
Definition SerializeInt (w fn v : Z) : S -> res (err * S) :=
  with_tag fn VARINT (SerializeVarint (uw w v)).
(** src/WireFormatter.h:209-219 *)
Definition SerializeUInt (fn v : Z) : S -> res (err * S) := with_tag fn VARINT (SerializeVarint v).
(** src/WireFormatter.h:221-231 *)
Definition SerializeSInt (w fn v : Z) : S -> res (err * S) :=
  with_tag fn VARINT (SerializeVarint (ZigZagEncode w v)).
(** src/WireFormatter.h:233-253 *)
Definition SerializeFixed32 (fn v : Z) : S -> res (err * S) :=
  with_tag fn FIXED32 (SerializeFixedNoTag 32 v).
Definition SerializeFixed64 (fn v : Z) : S -> res (err * S) :=
  with_tag fn FIXED64 (SerializeFixedNoTag 64 v).
(** src/WireFormatter.h:255-275 *)
Definition SerializeSFixed32 (fn v : Z) : S -> res (err * S) :=
  with_tag fn FIXED32 (SerialzieSFixedNoTag 32 v).
Definition SerializeSFixed64 (fn v : Z) : S -> res (err * S) :=
  with_tag fn FIXED64 (SerialzieSFixedNoTag 64 v).
(** src/WireFormatter.h:277-297 *)
Definition SerializeFloat (fn v : Z) : S -> res (err * S) :=
  with_tag fn FIXED32 (SerialzieFloatNoTag v).
Definition SerializeDouble (fn v : Z) : S -> res (err * S) :=
  with_tag fn FIXED64 (SerialzieDoubleNoTag v).
(** src/WireFormatter.h:299-309 *)
Definition SerializeBool (fn v : Z) : S -> res (err * S) := with_tag fn VARINT (push_bool v).
(** src/WireFormatter.h:311-320 *)
Definition SerializeEnum (fn v : Z) : S -> res (err * S) := with_tag fn VARINT (SerializeVarint v).

End Writers.

(* ------------------------------------------------------------------------------------------- *)
(** ** Readers. The result is (Error, assigned output, buffer): [Some v] when the output reference
    parameter was assigned [v], [None] when it was left alone. *)

Section Readers.
Context {S : Type} (R : rops S).

(** src/WireFormatter.h:562-574  the do-while loop of DeserializeVarint for a [w]-bit type.
    Result: (result, byte, temp_value, buffer). [n] bounds the iterations. *)
Fixpoint DeserializeVarint_loop (n : nat) (w i temp_value byte : Z) (s : S)
  : res (bool * Z * Z * S) :=
  match n with
  | O => Fuel
  | Datatypes.S n' =>
      let* (ob, s') := r_pop R s in
      let result := match ob with Some _ => true | None => false end in
      let byte' := match ob with Some b => b | None => byte end in
      let temp' := match ob with
                   | Some b => Z.lor temp_value
                                 (uw w (Z.shiftl (Z.land b 127) (i * VARINT_SHIFT_N_BITS)))
                   | None => temp_value
                   end in
      let i' := i + 1 in
      if negb (Z.land byte' VARINT_MSB_BYTE =? 0) && (i' <? n_bytes_in_varint w) && result
      then DeserializeVarint_loop n' w i' temp' byte' s'
      else Done (result, byte', temp', s')
  end.

(** src/WireFormatter.h:547-596 *)
Definition DeserializeVarint (w : Z) (s : S) : res (err * option Z * S) :=
  let* (result, byte, temp_value, s') := DeserializeVarint_loop 10 w 0 0 0 s in
  if result then
    if negb (Z.land byte VARINT_MSB_BYTE =? 0)
    then Done (OverlongVarint, None, s')
    else Done (NoErrors, Some temp_value, s')
  else Done (EndOfBuffer, None, s').

(** src/WireFormatter.h:336-357 *)
Definition DeserializeTag (s : S) : res (err * option (wiretype * Z) * S) :=
  let* (e, ov, s') := DeserializeVarint 32 s in
  match e, ov with
  | NoErrors, Some temp_value =>
      if Z.land temp_value 7 <=? wt_code FIXED32
      then Done (NoErrors, Some (wt_of_code (Z.land temp_value 7), Z.shiftr temp_value 3), s')
      else Done (InvalidWiretype, None, s')
  | _, _ => Done (e, None, s')
  end.

(** src/WireFormatter.h:359-366 *)
Definition DeserializeUInt (w : Z) (s : S) : res (err * option Z * S) := DeserializeVarint w s.

(** src/WireFormatter.h:368-383 *)
Definition DeserializeInt (w : Z) (s : S) : res (err * option Z * S) :=
  let* (e, ov, s') := DeserializeVarint 64 s in
  match e with
  | NoErrors => Done (e, option_map (sw w) ov, s')
  | _ => Done (e, None, s')
  end.

(** src/WireFormatter.h:385-402 *)
Definition DeserializeSInt (w : Z) (s : S) : res (err * option Z * S) :=
  let* (e, ov, s') := DeserializeVarint 64 s in
  match e with
  | NoErrors => Done (e, option_map (fun v => ZigZagDecode w (uw w v)) ov, s')
  | _ => Done (e, None, s')
  end.

(** src/WireFormatter.h:413-424  the for loop of DeserializeFixed; [n] is the number of bytes left. *)
Fixpoint DeserializeFixed_loop (n : nat) (w i temp_value : Z) (s : S) : res (bool * Z * S) :=
  match n with
  | O => Done (true, temp_value, s)
  | Datatypes.S n' =>
      let* (ob, s') := r_pop R s in
      match ob with
      | Some b => DeserializeFixed_loop n' w (i + 8)
                    (Z.lor temp_value (uw w (Z.shiftl b i))) s'
      | None => Done (false, temp_value, s')
      end
  end.

(** src/WireFormatter.h:404-437 *)
Definition DeserializeFixed (w : Z) (s : S) : res (err * option Z * S) :=
  let* (ok, temp_value, s') := DeserializeFixed_loop (Z.to_nat (w / 8)) w 0 0 s in
  if ok then Done (NoErrors, Some temp_value, s') else Done (EndOfBuffer, None, s').

(** src/WireFormatter.h:439-454 *)
Definition DeserializeSFixed (w : Z) (s : S) : res (err * option Z * S) :=
  let* (e, ov, s') := DeserializeFixed w s in
  match e with
  | NoErrors => Done (e, option_map (sw w) ov, s')
  | _ => Done (e, None, s')
  end.

(** src/WireFormatter.h:456-482  DeserializeFloat / DeserializeDouble, on bit patterns. *)
Definition DeserializeFloat (s : S) : res (err * option Z * S) := DeserializeFixed 32 s.
Definition DeserializeDouble (s : S) : res (err * option Z * S) := DeserializeFixed 64 s.

(** src/WireFormatter.h:484-497: one byte is popped; static_cast<bool>. *)
Definition DeserializeBool (s : S) : res (err * option Z * S) :=
  let* (ob, s') := r_pop R s in
  match ob with
  | Some b => Done (NoErrors, Some (if b =? 0 then 0 else 1), s')
  | None => Done (EndOfBuffer, None, s')
  end.

(** src/WireFormatter.h:499-510  DeserializeEnum (64-bit varint, cast to the uint32_t-based enum). *)
Definition DeserializeEnum (s : S) : res (err * option Z * S) :=
  let* (e, ov, s') := DeserializeVarint 64 s in
  match e with
  | NoErrors => Done (e, option_map u32 ov, s')
  | _ => Done (e, None, s')
  end.

End Readers.
