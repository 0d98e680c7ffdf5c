(** * Metered: serialize() with a counter of the calls to push().

    The functions of Fields.v and Message.v that write messages, once more, with a counter threaded through:
    every call of push() on any buffer adds one to it, whether the buffer is the caller's or one of the
    MessageSizeCalculators that serialized_size() creates on the way. MeteredProofs.v shows that apart from the
    counter these are the functions of Fields.v and Message.v. *)
From Verif Require Import Base Buffers Wire Schema Fields Message SpecWork.

(** A serialize() method: the counter stands beside the state of the buffer. *)
Definition mserializer : Type := forall S : Type, wops S -> S * Z -> res (err * (S * Z)).

(** src/Fields.cpp:35-42  serialized_size: a new calculator, the same counter. *)
Definition metered_size (ser : mserializer) {S} (s : S * Z) : res (Z * (S * Z)) :=
  let* (_, (size, k)) := ser Z calc_ops (0, snd s) in Done (size, (fst s, k)).

(** src/Fields.h:136-144, src/FieldStringBytes.h:175-204, src/MessageInterface.cpp:38-71  serialize_with_id
    of an element (compare elem_serialize_with_id). *)
Definition melem_serialize_with_id (t : ety) (ser : value -> mserializer) (v : value) (num : Z)
    (optional : bool) : mserializer := fun S W s =>
  match t with
  | EScalar sc => scalar_serialize_with_id sc v num _ (counted_writer W) s
  | EBytes _ _ => bytes_serialize_with_id v num optional _ (counted_writer W) s
  | EMsg _ _ =>
      let* (size_x, s0) := metered_size (ser v) s in
      if (0 <? size_x) || optional then
        let* (e, s1) := SerializeVarint (counted_writer W) (MakeTag num LENDEL) s0 in
        if is_ok e then
          let* (e, s2) := SerializeVarint (counted_writer W) size_x s1 in
          if is_ok e then
            if size_x <=? w_get_available_size W (fst s2)
            then ser v S W s2
            else Done (BufferFull, s2)
          else Done (e, s2)
        else Done (e, s1)
      else Done (NoErrors, s0)
  end.

(** src/RepeatedField.h:307-315  serialize_packed. *)
Fixpoint mrep_serialize_packed (ser : value -> mserializer) (n : nat) (i : Z) (data : list value)
    {S} (W : wops S) (s : S * Z) : res (err * (S * Z)) :=
  match n with
  | O => Done (NoErrors, s)
  | Datatypes.S n' =>
      let* x := rep_get_const data i in
      let* (e, s') := ser x S W s in
      if is_ok e then mrep_serialize_packed ser n' (i + 1) data W s' else Done (e, s')
  end.

(** src/RepeatedField.h:317-336  serialize_unpacked *)
Fixpoint mrep_serialize_unpacked (ser : value -> mserializer) (num : Z) (n : nat) (i : Z)
    (data : list value) {S} (W : wops S) (s : S * Z) : res (err * (S * Z)) :=
  match n with
  | O => Done (NoErrors, s)
  | Datatypes.S n' =>
      let* x := rep_get_const data i in
      let* (size_x, s0) := metered_size (ser x) s in
      let* (e, s1) := SerializeVarint (counted_writer W) (MakeTag num LENDEL) s0 in
      let* (e, s2) := (if is_ok e then
                         let* (e, s2) := SerializeVarint (counted_writer W) size_x s1 in
                         if is_ok e && (0 <? size_x) then ser x S W s2 else Done (e, s2)
                       else Done (e, s1)) in
      if is_ok e then mrep_serialize_unpacked ser num n' (i + 1) data W s2 else Done (e, s2)
  end.

(** src/RepeatedField.h:155-201  serialize_with_id, 241-257 serialized_size_packed and _unpacked. *)
Definition mrep_serialize_with_id (t : ety) (ser : value -> mserializer) (v : value) (num : Z)
    (optional : bool) : mserializer := fun S W s =>
  match v with
  | VR len data =>
      if is_packed t then
        let* (size_x, s0) := metered_size (fun S W s =>
                         mrep_serialize_packed ser (Z.to_nat len) 0 data W s) s in
        if (0 <? size_x) || optional then
          let* (e, s1) := SerializeVarint (counted_writer W) (MakeTag num LENDEL) s0 in
          if is_ok e then
            let* (e, s2) := SerializeVarint (counted_writer W) size_x s1 in
            if is_ok e then
              if size_x <=? w_get_available_size W (fst s2)
              then mrep_serialize_packed ser (Z.to_nat len) 0 data W s2
              else Done (BufferFull, s2)
            else Done (e, s2)
          else Done (e, s1)
        else Done (NoErrors, s0)
      else
        let* (size_x, s0) := metered_size (fun S W s =>
                         mrep_serialize_unpacked ser num (Z.to_nat len) 0 data W s) s in
        if size_x <=? w_get_available_size W (fst s0)
        then mrep_serialize_unpacked ser num (Z.to_nat len) 0 data W s0
        else Done (BufferFull, s0)
  | _ => UB
  end.

Notation mfield := (Z * fkind * ety * (value -> mserializer))%type.
Notation mmember := (Z * ety * (value -> mserializer))%type.

(** templates/Field*_Serialize.h:30-37 (compare field_serialize). *)
Definition mfield_serialize (f : mfield) (oi : Z) (pres : list Z) (v : value) : mserializer :=
  fun S W s =>
  let '(num, k, t, ser) := f in
  match k with
  | KPlain =>
      match t, v with
      | EScalar sc, VS z =>
          if scalar_differs_from_default sc z
          then melem_serialize_with_id t ser v num false S W s
          else Done (NoErrors, s)
      | EScalar _, _ => UB
      | _, _ => melem_serialize_with_id t ser v num false S W s
      end
  | KOpt =>
      let* has := presence_has pres oi in
      if has then melem_serialize_with_id t ser v num true S W s else Done (NoErrors, s)
  | KRep _ => mrep_serialize_with_id t ser v num false S W s
  | KRecursive => Done (NoErrors, s)
  end.

(** templates/TypeDefMsg.h:163-166 *)
Fixpoint mfields_serialize (fs : list mfield) (oi : Z) (pres : list Z) (vs : list value)
    {S} (W : wops S) (s : S * Z) : res (err * (S * Z)) :=
  match fs, vs with
  | [], [] => Done (NoErrors, s)
  | (num, k, t, ser) :: fs', v :: vs' =>
      let* (e, s') := mfield_serialize (num, k, t, ser) oi pres v S W s in
      if is_ok e then mfields_serialize fs' (next_opt k oi) pres vs' W s' else Done (e, s')
  | _, _ => UB
  end.

(** templates/TypeDefMsg.h:167-179 *)
Fixpoint moneofs_serialize (os : list (list mmember)) (vs : list (Z * value))
    {S} (W : wops S) (s : S * Z) : res (err * (S * Z)) :=
  match os, vs with
  | [], [] => Done (NoErrors, s)
  | ms :: os', (which, v) :: vs' =>
      let* (e, s') :=
        match find_member ms which with
        | Some (t, ser) => melem_serialize_with_id t ser v which true S W s
        | None => Done (NoErrors, s)
        end in
      if is_ok e then moneofs_serialize os' vs' W s' else Done (e, s')
  | _, _ => UB
  end.

(** templates/TypeDefMsg.h:159-182  serialize of a message; src/Fields.h:146-149 and
    src/FieldStringBytes.h:206-216 of the others. *)
Fixpoint metered_serialize (t : ety) (v : value) : mserializer :=
  match t with
  | EScalar sc => fun S W s => scalar_serialize sc v _ (counted_writer W) s
  | EBytes _ _ => fun S W s => bytes_serialize v _ (counted_writer W) s
  | EMsg fs os => fun S W s =>
      match v with
      | VM pres vs ovs =>
          let* (e, s') := mfields_serialize (map (fun '(num, k, t) => (num, k, t, metered_serialize t)) fs) 0 pres vs W s in
          if is_ok e then moneofs_serialize (map (map (fun '(num, t) => (num, t, metered_serialize t))) os) ovs W s'
          else Done (e, s')
      | _ => UB
      end
  end.
