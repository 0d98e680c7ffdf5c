(** * Message: the generated message classes (generator/EmbeddedProto/templates) and
      src/MessageInterface.cpp. *)
From Verif Require Import Base Buffers Wire Schema Fields.

(* ------------------------------------------------------------------------------------------- *)
(** ** serialize *)

(** `{{default}} != value_.get()` for a plain scalar, templates/FieldBasic_Serialize.h:33 and
    FieldEnum_Serialize.h:33. For float and double this is the IEEE comparison with 0.0, false for
    both zeros (bit patterns 0 and sign bit only) and true for everything else including NaN. *)
Definition scalar_differs_from_default (sc : scalar) (z : Z) : bool :=
  match sc with
  | FloatFixed => negb ((z =? 0) || (z =? 2 ^ 31))
  | DoubleFixed => negb ((z =? 0) || (z =? 2 ^ 63))
  | _ => negb (z =? 0)
  end.

(** Table of the fields of a message together with the `serialize` method of the field's class. *)
Notation sfield := (Z * fkind * ety * (value -> serializer))%type.
Notation smember := (Z * ety * (value -> serializer))%type.

(** One field of serialize(): templates/FieldBasic_Serialize.h, FieldEnum_Serialize.h,
    FieldStringBytes_Serialize.h, FieldMsg_Serialize.h, FieldRepeated_Serialize.h (lines 30-37);
    recursive fields render to nothing (Field.py:555-571).
    [oi] is the index of the next optional field in the presence bits. *)
Definition field_serialize (f : sfield) (oi : Z) (pres : list Z) (v : value) : serializer :=
  fun S W s =>
  let '(num, k, t, ser) := f in
  match k with
  | KPlain =>
      match t, v with
      | EScalar sc, VS z =>
          if scalar_differs_from_default sc z
          then elem_serialize_with_id t ser v num false S W s
          else Done (NoErrors, s)
      | EScalar _, _ => UB
      | _, _ => elem_serialize_with_id t ser v num false S W s
      end
  | KOpt =>
      let* has := presence_has pres oi in
      if has then elem_serialize_with_id t ser v num true S W s else Done (NoErrors, s)
  | KRep _ => rep_serialize_with_id t ser v num false S W s
  | KRecursive => Done (NoErrors, s)
  end.

(** The number of the next optional field: the enumerators of presence::fields count the optional fields in their
    order, templates/TypeDefMsg.h:361-367. *)
Definition next_opt (k : fkind) (oi : Z) : Z := match k with KOpt => oi + 1 | _ => oi end.

(** templates/TypeDefMsg.h:163-166  the fields in order; every step is guarded by
    `NO_ERRORS == return_value`. *)
Fixpoint fields_serialize (fs : list sfield) (oi : Z) (pres : list Z) (vs : list value)
    {S} (W : wops S) (s : S) : res (err * S) :=
  match fs, vs with
  | [], [] => Done (NoErrors, s)
  | (num, k, t, ser) :: fs', v :: vs' =>
      let* (e, s') := field_serialize (num, k, t, ser) oi pres v S W s in
      if is_ok e then fields_serialize fs' (next_opt k oi) pres vs' W s' else Done (e, s')
  | _, _ => UB
  end.

(** The case of the switch on which_<oneof>, templates/TypeDefMsg.h:168-177. [None]: default. *)
Fixpoint find_member {X} (ms : list (Z * ety * X)) (id : Z) : option (ety * X) :=
  match ms with
  | [] => None
  | (num, t, x) :: ms' => if num =? id then Some (t, x) else find_member ms' id
  end.

(** templates/TypeDefMsg.h:167-179 with the member templates' has_ check (always true here) and the
    guard on return_value. *)
Fixpoint oneofs_serialize (os : list (list smember)) (vs : list (Z * value))
    {S} (W : wops S) (s : S) : res (err * S) :=
  match os, vs with
  | [], [] => Done (NoErrors, s)
  | ms :: os', (which, v) :: vs' =>
      let* (e, s') :=
        match find_member ms which with
        | Some (t, ser) => elem_serialize_with_id t ser v which true S W s
        | None => Done (NoErrors, s)
        end in
      if is_ok e then oneofs_serialize os' vs' W s' else Done (e, s')
  | _, _ => UB
  end.

(** templates/TypeDefMsg.h:159-182  serialize *)
Definition msg_serialize (fs : list sfield) (os : list (list smember)) (v : value) : serializer :=
  fun S W s =>
  match v with
  | VM pres vs ovs =>
      let* (e, s') := fields_serialize fs 0 pres vs W s in
      if is_ok e then oneofs_serialize os ovs W s' else Done (e, s')
  | _ => UB
  end.

(** The virtual method `serialize` of any element class. *)
Fixpoint serialize (t : ety) (v : value) : serializer :=
  match t with
  | EScalar sc => scalar_serialize sc v
  | EBytes _ _ => bytes_serialize v
  | EMsg fs os =>
      msg_serialize (map (fun '(num, k, t) => (num, k, t, serialize t)) fs)
                    (map (map (fun '(num, t) => (num, t, serialize t))) os) v
  end.

(* ------------------------------------------------------------------------------------------- *)
(** ** deserialize *)

(** src/MessageInterface.cpp:145-155  skip_length_delimited: the result of advance is ignored. *)
Definition skip_length_delimited {S} (R : rops S) (s : S) : res (err * S) :=
  let* (e, on, s1) := DeserializeVarint R 32 s in
  match e, on with
  | NoErrors, Some n_bytes => let* (_, s2) := r_advance_n R s1 n_bytes in Done (e, s2)
  | _, _ => Done (e, s1)
  end.

(** src/MessageInterface.cpp:93-143  skip_unknown_field *)
Definition skip_unknown_field (w : wiretype) {S} (R : rops S) (s : S) : res (err * S) :=
  match w with
  | VARINT => let* (e, _, s') := DeserializeVarint R 64 s in Done (e, s')
  | FIXED64 => let* (e, _, s') := DeserializeDouble R s in Done (e, s')
  | LENDEL => skip_length_delimited R s
  | FIXED32 => let* (e, _, s') := DeserializeFloat R s in Done (e, s')
  | STARTGROUP | ENDGROUP => Done (NoErrors, s)
  end.

(** Tables with the `deserialize` method of the element class. *)
Notation dfield := (Z * fkind * ety * deserializer)%type.
Notation dmember := (Z * ety * deserializer)%type.

(** The case of the switch for a field number: position in the object, index of the presence bit,
    and the table entry. *)
Fixpoint find_field (fs : list dfield) (pos : nat) (oi : Z) (id : Z) : option (nat * Z * dfield) :=
  match fs with
  | [] => None
  | (num, k, t, d) :: fs' =>
      if num =? id then Some (pos, oi, (num, k, t, d))
      else find_field fs' (Datatypes.S pos) (next_opt k oi) id
  end.

(** Which oneof has a member with this field number (templates/TypeDefMsg.h:204-211). *)
Fixpoint find_oneof (os : list (list dmember)) (pos : nat) (id : Z) : option (nat * list dmember) :=
  match os with
  | [] => None
  | ms :: os' => match find_member ms id with
                 | Some _ => Some (pos, ms)
                 | None => find_oneof os' (Datatypes.S pos) id
                 end
  end.

(** templates/FieldBasic_Deserialize.h:30-33 (and FieldMsg_, FieldEnum_Deserialize.h): the presence
    bit is set before the value is read. Repeated fields use the same template without presence,
    recursive fields render to nothing. Result: error, presence_, field object, buffer. *)
Definition field_deserialize (fuel : nat) (f : dfield) (oi : Z) (w : wiretype) (pres : list Z)
    (v : value) {S} (R : rops S) (s : S) : res (err * list Z * value * S) :=
  let '(_, k, t, deser) := f in
  match k with
  | KPlain =>
      let* (e, v', s') := elem_deserialize_check_type t deser w S R v s in Done (e, pres, v', s')
  | KOpt =>
      let* pres' := presence_set pres oi in
      let* (e, v', s') := elem_deserialize_check_type t deser w S R v s in Done (e, pres', v', s')
  | KRep _ =>
      let* (e, v', s') := rep_deserialize_check_type fuel t deser w S R v s in
      Done (e, pres, v', s')
  | KRecursive => Done (NoErrors, pres, v, s)
  end.

(** Is this an enum field? Field.py:126-127  oneof_allocation_required is false for enums only. *)
Definition is_enum (t : ety) : bool := match t with EScalar Enumeration => true | _ => false end.

(** The object placement-new creates, templates/TypeOneof.h:61-75: `new(&x) T` default-initialises,
    which leaves value_ of a FieldTemplate indeterminate; enums are not constructed at all and keep
    whatever the storage holds. *)
Definition placement_new (t : ety) : value :=
  match t with EScalar _ => VIndet | _ => default_value t end.

(** templates/TypeOneof.h:84-105  clear_<oneof>: destroys the active member (enums are set to their
    default value) and sets which_ to NOT_SET. *)
Definition oneof_clear {X} (ms : list (Z * ety * X)) (o : Z * value) : Z * value :=
  match find_member ms (fst o) with
  | Some (t, _) => (0, if is_enum t then VS 0 else VIndet)
  | None => (0, snd o)
  end.

(** templates/TypeOneof.h:52-80  init_<oneof>(field_id) *)
Definition oneof_init {X} (ms : list (Z * ety * X)) (id : Z) (o : Z * value) : Z * value :=
  let o' := if fst o =? 0 then o else oneof_clear ms o in
  match find_member ms id with
  | Some (t, _) => (id, if is_enum t then VIndet else placement_new t)
  | None => (id, snd o')
  end.

(** templates/TypeOneof.h:109-138  deserialize_<oneof> *)
Definition oneof_deserialize (ms : list dmember) (id : Z) (w : wiretype) (o : Z * value)
    {S} (R : rops S) (s : S) : res (err * (Z * value) * S) :=
  let o1 := if id =? fst o then o else oneof_init ms id o in
  let* (e, o2, s') :=
    match find_member ms (fst o1) with
    | Some (t, d) =>
        let* (e, v', s') := elem_deserialize_check_type t d w S R (snd o1) s in
        Done (e, (fst o1, v'), s')
    | None => Done (NoErrors, o1, s)
    end in
  Done (e, if is_ok e then o2 else oneof_clear ms o2, s').

(** The switch of deserialize, templates/TypeDefMsg.h:194-221 *)
Definition msg_dispatch (fuel : nat) (fs : list dfield) (os : list (list dmember)) (id : Z)
    (w : wiretype) {S} (R : rops S) (v : value) (s : S) : res (err * value * S) :=
  match v with
  | VM pres vs ovs =>
      match find_field fs 0 0 id with
      | Some (pos, oi, f) =>
          let* x := aget vs (Z.of_nat pos) in
          let* (e, pres', x', s') := field_deserialize fuel f oi w pres x R s in
          let* vs' := aset vs (Z.of_nat pos) x' in
          Done (e, VM pres' vs' ovs, s')
      | None =>
          match find_oneof os 0 id with
          | Some (pos, ms) =>
              let* o := aget ovs (Z.of_nat pos) in
              let* (e, o', s') := oneof_deserialize ms id w o R s in
              let* ovs' := aset ovs (Z.of_nat pos) o' in
              Done (e, VM pres vs ovs', s')
          | None =>
              if id =? 0 then Done (InvalidFieldId, v, s)
              else let* (e, s') := skip_unknown_field w R s in Done (e, v, s')
          end
      end
  | _ => UB
  end.

(** templates/TypeDefMsg.h:191-236  the loop of deserialize. Each iteration reads a tag (the first
    is read at 191, the next at 224-228) and then the field. The end of the buffer at a tag is not an
    error (230-235). *)
Fixpoint msg_loop (fuel0 fuel : nat) (fs : list dfield) (os : list (list dmember))
    {S} (R : rops S) (v : value) (s : S) : res (err * value * S) :=
  match fuel with
  | O => Fuel
  | Datatypes.S fuel' =>
      let* (te, ot, s1) := DeserializeTag R s in
      match te, ot with
      | NoErrors, Some (w, id) =>
          let* (e, v', s2) := msg_dispatch fuel0 fs os id w R v s1 in
          if is_ok e then msg_loop fuel0 fuel' fs os R v' s2 else Done (e, v', s2)
      | EndOfBuffer, _ => Done (NoErrors, v, s1)
      | _, _ => Done (te, v, s1)
      end
  end.

(** templates/TypeDefMsg.h:184-236  deserialize *)
Definition msg_deserialize (fuel : nat) (fs : list dfield) (os : list (list dmember))
  : deserializer := fun S R v s => msg_loop fuel fuel fs os R v s.

(** The virtual method `deserialize` of any element class. [fuel] bounds every message loop and
    every packed-field loop; the string loop and the varint loops need no fuel. *)
Fixpoint deserialize (fuel : nat) (t : ety) : deserializer :=
  match t with
  | EScalar sc => scalar_deserialize sc
  | EBytes _ max => bytes_deserialize max
  | EMsg fs os =>
      msg_deserialize fuel (map (fun '(num, k, t) => (num, k, t, deserialize fuel t)) fs)
                           (map (map (fun '(num, t) => (num, t, deserialize fuel t))) os)
  end.
