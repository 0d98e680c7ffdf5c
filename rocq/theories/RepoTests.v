(** * RepoTests: the unit tests of the repository, run on the model.

    These are tests of the model, not properties: they show that the model gives the answers the authors of the
    code expect. Every Example cites the test it transcribes and is decided by computation. The expected bytes are
    copied from the test. Left out: tests that only construct an object, field_number_to_name (modelled as text in
    GenBody.v) and get_size()/get_max_size() in bytes of memory of a repeated field (not modelled). *)
From Verif Require Import Base Buffers Wire Schema Fields Message Api Printf ToString Spec.
From Coq Require Import String.
Open Scope Z_scope.
Local Open Scope list_scope.

(* ------------------------------------------------------------------------------------------- *)
(** ** Mock buffers *)

(** A call the test expects on test/mock/WriteBufferMock.h, with what the mock answers. [Avail n] says what
    get_available_size() returns from here to the next push. *)
Inductive wcall : Type := Push (b : Z) (ret : bool) | PushAny (ret : bool) | PushN (len : Z) (ret : bool) | Avail (n : Z).
Fixpoint after_avail (s : list wcall) : list wcall := match s with Avail _ :: s' => after_avail s' | _ => s end.
(** The mock in a test with InSequence: a call that is not the expected one makes the test fail, here UB. Functions
    without an expectation answer [dflt] (ON_CALL, or 0, the default of gMock). *)
Definition wmock (dflt : Z) : wops (list wcall) := {|
  w_clear := fun s => s;
  w_get_size := fun _ => dflt;
  w_get_max_size := fun _ => dflt;
  w_get_available_size := fun s => match s with Avail n :: _ => n | _ => dflt end;
  w_push := fun s b => match after_avail s with
                       | Push b' ret :: s' => if b =? b' then Done (ret, s') else UB
                       | PushAny ret :: s' => Done (ret, s')
                       | _ => UB
                       end;
  w_pushn := fun s _ len => match after_avail s with
                            | PushN len' ret :: s' => if len =? len' then Done (ret, s') else UB
                            | _ => UB
                            end
|}.
Definition pushes (l : list Z) : list wcall := map (fun b => Push b true) l.

(** A call the test expects on test/mock/ReadBufferMock.h. [Pop None] is "return false". get_size() always answers
    [size] (ON_CALL); advance(n) answers false, the default of gMock. *)
Inductive rcall : Type := Pop (b : option Z) | Advance | AdvanceN (n : Z).
Definition rmock (size : Z) : rops (list rcall) := {|
  r_get_size := fun _ => size;
  r_get_max_size := fun _ => size;
  r_peek := fun _ => UB;
  r_advance := fun s => match s with Advance :: s' => Done (false, s') | _ => UB end;
  r_advance_n := fun s n => match s with AdvanceN n' :: s' => if n =? n' then Done (false, s') else UB | _ => UB end;
  r_pop := fun s => match s with Pop b :: s' => Done (b, s') | _ => UB end
|}.
Definition pops (l : list Z) : list rcall := map (fun b => Pop (Some b)) l.
(** The usual expectation: the bytes, then one pop that returns false. *)
Definition pops_end (l : list Z) : list rcall := pops l ++ [Pop None].

(** The object a test has after some calls on a new object of the class. *)
Definition after (t : ety) (ops : list op) : res value := run_ops 100 ops (OElem t) (construct (OElem t)).
(** serialize() of that object into the mock: the error, provided all expected calls were made. *)
Definition ser (t : ety) (ops : list op) (dflt : Z) (script : list wcall) : res err :=
  let* v := after t ops in let* (e, s) := serialize t v _ (wmock dflt) script in
  match after_avail s with [] => Done e | _ => UB end.
Definition size (t : ety) (ops : list op) : res Z := let* v := after t ops in serialized_size (serialize t v).
(** deserialize() of a new object from the mock: the error and what the object shows. *)
Definition des (t : ety) (n : Z) (script : list rcall) : res (err * sval) :=
  let* (e, v, s) := deserialize 100 t _ (rmock n) (construct (OElem t)) script in
  match s with [] => Done (e, view t v) | _ => UB end.

(* ------------------------------------------------------------------------------------------- *)
(** ** test_SimpleTypes.cpp, test_unkown_fields.cpp *)

(** test/proto/simple_types.proto:45-70 *)
Definition Test_Simple_Types : ety := EMsg
  [(1, KPlain, EScalar Int32); (2, KPlain, EScalar Int64); (3, KPlain, EScalar UInt32); (4, KPlain, EScalar UInt64);
   (5, KPlain, EScalar SInt32); (6, KPlain, EScalar SInt64); (7, KPlain, EScalar Boolean); (8, KPlain, EScalar Enumeration);
   (9, KPlain, EScalar Fixed64); (10, KPlain, EScalar SFixed64); (11, KPlain, EScalar DoubleFixed); (12, KPlain, EScalar Fixed32);
   (13, KPlain, EScalar SFixed32); (14, KPlain, EScalar FloatFixed); (15, KPlain, EScalar Enumeration)] [].
(** set_a_int32(z1); set_a_int64(z2); ... *)
Definition set_all (zs : list Z) : list op := map (fun '(i, z) => OpField i (OpScalarSet z)) (combine (seq 0 (List.length zs)) zs).
(** What the getters return. *)
Definition shows_all (zs : list Z) : sval := SvM (map SvZ zs) [].
Definition double_one : Z := 0x3ff0000000000000.
Definition float_one : Z := 0x3f800000.
Definition double_max : Z := 0x7fefffffffffffff.
Definition float_max : Z := 0x7f7fffff.
Definition double_min : Z := 0x0010000000000000.
Definition float_min : Z := 0x00800000.
Definition double_lowest : Z := 0xffefffffffffffff.
Definition float_lowest : Z := 0xff7fffff.
Definition i32_max : Z := 2147483647.
Definition i64_max : Z := 9223372036854775807.
Definition u32_max : Z := 4294967295.
Definition u64_max : Z := 18446744073709551615.
Definition ones : list Z := [1; 1; 1; 1; 1; 1; 1; 1; 1; 1; double_one; 1; 1; float_one; 1].
Definition maxima : list Z :=
  [i32_max; i64_max; u32_max; u64_max; i32_max; i64_max; 1; 2000000000; u64_max; i64_max; double_max; u32_max; i32_max; float_max].
Definition minima : list Z :=
  [-2147483648; -9223372036854775808; 0; 0; -2147483648; -9223372036854775808; 0; 0; 0; -9223372036854775808; double_lowest; 0;
   -2147483648; float_lowest].

(** test/test_SimpleTypes.cpp:53 TEST(SimpleTypes, zero) *)
Example SimpleTypes_zero : ser Test_Simple_Types [] 0 [] = Done NoErrors /\ size Test_Simple_Types [] = Done 0.
Proof. split; vm_compute; reflexivity. Qed.
(** test/test_SimpleTypes.cpp:69 TEST(SimpleTypes, serialize_one) *)
Example SimpleTypes_serialize_one : ser Test_Simple_Types (set_all ones) 0 (pushes [0x08; 0x01; 0x10; 0x01; 0x18; 0x01; 0x20; 0x01; 0x28; 0x02; 0x30; 0x02; 0x38; 0x01; 0x40; 0x01; 0x49; 0x01; 0x00; 0x00; 0x00; 0x00; 0x00; 0x00; 0x00; 0x51; 0x01; 0x00; 0x00; 0x00; 0x00; 0x00; 0x00; 0x00; 0x59; 0x00; 0x00; 0x00; 0x00; 0x00; 0x00; 0xf0; 0x3f; 0x65; 0x01; 0x00; 0x00; 0x00; 0x6d; 0x01; 0x00; 0x00; 0x00; 0x75; 0x00; 0x00; 0x80; 0x3f; 0x78; 0x01]) = Done NoErrors
  /\ size Test_Simple_Types (set_all ones) = Done 60.
Proof. split; vm_compute; reflexivity. Qed.
(** test/test_SimpleTypes.cpp:119 TEST(SimpleTypes, serialize_max) *)
Example SimpleTypes_serialize_max : ser Test_Simple_Types (set_all maxima) 0 (pushes [0x08; 0xFF; 0xFF; 0xFF; 0xFF; 0x07; 0x10; 0xFF; 0xFF; 0xFF; 0xFF; 0xFF; 0xFF; 0xFF; 0xFF; 0x7F; 0x18; 0xFF; 0xFF; 0xFF; 0xFF; 0x0F; 0x20; 0xFF; 0xFF; 0xFF; 0xFF; 0xFF; 0xFF; 0xFF; 0xFF; 0xFF; 0x01; 0x28; 0xFE; 0xFF; 0xFF; 0xFF; 0x0F; 0x30; 0xFE; 0xFF; 0xFF; 0xFF; 0xFF; 0xFF; 0xFF; 0xFF; 0xFF; 0x01; 0x38; 0x01; 0x40; 0x80; 0xA8; 0xD6; 0xB9; 0x07; 0x49; 0xFF; 0xFF; 0xFF; 0xFF; 0xFF; 0xFF; 0xFF; 0xFF; 0x51; 0xFF; 0xFF; 0xFF; 0xFF; 0xFF; 0xFF; 0xFF; 0x7F; 0x59; 0xFF; 0xFF; 0xFF; 0xFF; 0xFF; 0xFF; 0xEF; 0x7F; 0x65; 0xFF; 0xFF; 0xFF; 0xFF; 0x6D; 0xFF; 0xFF; 0xFF; 0x7F; 0x75; 0xFF; 0xFF; 0x7F; 0x7F]) = Done NoErrors
  /\ size Test_Simple_Types (set_all maxima) = Done 100.
Proof. split; vm_compute; reflexivity. Qed.
(** test/test_SimpleTypes.cpp:167 TEST(SimpleTypes, serialize_min) *)
Example SimpleTypes_serialize_min : ser Test_Simple_Types (set_all minima) 0 (pushes [0x08; 0x80; 0x80; 0x80; 0x80; 0x08; 0x10; 0x80; 0x80; 0x80; 0x80; 0x80; 0x80; 0x80; 0x80; 0x80; 0x01; 0x28; 0xFF; 0xFF; 0xFF; 0xFF; 0x0F; 0x30; 0xFF; 0xFF; 0xFF; 0xFF; 0xFF; 0xFF; 0xFF; 0xFF; 0xFF; 0x01; 0x51; 0x00; 0x00; 0x00; 0x00; 0x00; 0x00; 0x00; 0x80; 0x59; 0xFF; 0xFF; 0xFF; 0xFF; 0xFF; 0xFF; 0xEF; 0xFF; 0x6D; 0x00; 0x00; 0x00; 0x80; 0x75; 0xFF; 0xFF; 0x7F; 0xFF]) = Done NoErrors
  /\ size Test_Simple_Types (set_all minima) = Done 62.
Proof. split; vm_compute; reflexivity. Qed.
(** test/test_SimpleTypes.cpp:208 TEST(SimpleTypes, serialize_smalest_real) *)
Example SimpleTypes_serialize_smalest_real :
  let ops := [OpField 10 (OpScalarSet double_min); OpField 13 (OpScalarSet float_min)] in
  ser Test_Simple_Types ops 0 (pushes [0x59; 0x00; 0x00; 0x00; 0x00; 0x00; 0x00; 0x10; 0x00; 0x75; 0x00; 0x00; 0x80; 0x00]) = Done NoErrors /\ size Test_Simple_Types ops = Done 14.
Proof. split; vm_compute; reflexivity. Qed.
(** test/test_SimpleTypes.cpp:232 TEST(SimpleTypes, serialize_fault_buffer_full_varint) The test expects two calls of push() from the refused byte
    on; the second one answers false too (the default of gMock). *)
Example SimpleTypes_serialize_fault_buffer_full_varint :
  ser Test_Simple_Types [OpField 2 (OpScalarSet u32_max)] 0 [PushAny true; PushAny true; PushAny false; PushAny false] = Done BufferFull.
Proof. vm_compute. reflexivity. Qed.
(** test/test_SimpleTypes.cpp:254 TEST(SimpleTypes, deserialize_zero) *)
Example SimpleTypes_deserialize_zero : des Test_Simple_Types 0 [Pop None] = Done (NoErrors, shows_all (repeat 0 15)).
Proof. vm_compute. reflexivity. Qed.
(** test/test_SimpleTypes.cpp:279 TEST(SimpleTypes, deserialize_one) *)
Example SimpleTypes_deserialize_one : des Test_Simple_Types 58 (pops_end [0x08; 0x01; 0x10; 0x01; 0x18; 0x01; 0x20; 0x01; 0x28; 0x02; 0x30; 0x02; 0x38; 0x01; 0x40; 0x01; 0x49; 0x01; 0x00; 0x00; 0x00; 0x00; 0x00; 0x00; 0x00; 0x51; 0x01; 0x00; 0x00; 0x00; 0x00; 0x00; 0x00; 0x00; 0x59; 0x00; 0x00; 0x00; 0x00; 0x00; 0x00; 0xf0; 0x3f; 0x65; 0x01; 0x00; 0x00; 0x00; 0x6d; 0x01; 0x00; 0x00; 0x00; 0x75; 0x00; 0x00; 0x80; 0x3f])
  = Done (NoErrors, shows_all (firstn 14 ones ++ [0])).
Proof. vm_compute. reflexivity. Qed.
(** test/test_SimpleTypes.cpp:326 TEST(SimpleTypes, deserialize_10_byte_int32) *)
Example SimpleTypes_deserialize_10_byte_int32 : des Test_Simple_Types 11 (pops_end [0x08; 0x81; 0x80; 0x80; 0x80; 0x80; 0x8F; 0x8F; 0x8F; 0x8F; 0x0F])
  = Done (NoErrors, shows_all (1 :: repeat 0 14)).
Proof. vm_compute. reflexivity. Qed.
(** test/test_SimpleTypes.cpp:352 TEST(SimpleTypes, deserialize_max) *)
Example SimpleTypes_deserialize_max : des Test_Simple_Types 100 (pops_end [0x08; 0xFF; 0xFF; 0xFF; 0xFF; 0x07; 0x10; 0xFF; 0xFF; 0xFF; 0xFF; 0xFF; 0xFF; 0xFF; 0xFF; 0x7F; 0x18; 0xFF; 0xFF; 0xFF; 0xFF; 0x0F; 0x20; 0xFF; 0xFF; 0xFF; 0xFF; 0xFF; 0xFF; 0xFF; 0xFF; 0xFF; 0x01; 0x28; 0xFE; 0xFF; 0xFF; 0xFF; 0x0F; 0x30; 0xFE; 0xFF; 0xFF; 0xFF; 0xFF; 0xFF; 0xFF; 0xFF; 0xFF; 0x01; 0x38; 0x01; 0x40; 0x80; 0xA8; 0xD6; 0xB9; 0x07; 0x49; 0xFF; 0xFF; 0xFF; 0xFF; 0xFF; 0xFF; 0xFF; 0xFF; 0x51; 0xFF; 0xFF; 0xFF; 0xFF; 0xFF; 0xFF; 0xFF; 0x7F; 0x59; 0xFF; 0xFF; 0xFF; 0xFF; 0xFF; 0xFF; 0xEF; 0x7F; 0x65; 0xFF; 0xFF; 0xFF; 0xFF; 0x6D; 0xFF; 0xFF; 0xFF; 0x7F; 0x75; 0xFF; 0xFF; 0x7F; 0x7F])
  = Done (NoErrors, shows_all (maxima ++ [0])).
Proof. vm_compute. reflexivity. Qed.
(** test/test_SimpleTypes.cpp:399 TEST(SimpleTypes, deserialize_min) *)
Example SimpleTypes_deserialize_min : des Test_Simple_Types 58 (pops_end [0x08; 0x80; 0x80; 0x80; 0x80; 0x08; 0x10; 0x80; 0x80; 0x80; 0x80; 0x80; 0x80; 0x80; 0x80; 0x80; 0x01; 0x28; 0xFF; 0xFF; 0xFF; 0xFF; 0x0F; 0x30; 0xFF; 0xFF; 0xFF; 0xFF; 0xFF; 0xFF; 0xFF; 0xFF; 0xFF; 0x01; 0x51; 0x00; 0x00; 0x00; 0x00; 0x00; 0x00; 0x00; 0x80; 0x59; 0xFF; 0xFF; 0xFF; 0xFF; 0xFF; 0xFF; 0xEF; 0xFF; 0x6D; 0x00; 0x00; 0x00; 0x80; 0x75; 0xFF; 0xFF; 0x7F; 0xFF])
  = Done (NoErrors, shows_all (minima ++ [0])).
Proof. vm_compute. reflexivity. Qed.
(** test/test_SimpleTypes.cpp:440 TEST(SimpleTypes, deserialize_smalest_real) *)
Example SimpleTypes_deserialize_smalest_real : des Test_Simple_Types 0 (pops_end [0x59; 0x00; 0x00; 0x00; 0x00; 0x00; 0x00; 0x10; 0x00; 0x75; 0x00; 0x00; 0x80; 0x00])
  = Done (NoErrors, shows_all (repeat 0 10 ++ [double_min; 0; 0; float_min; 0])).
Proof. vm_compute. reflexivity. Qed.
(** test/test_SimpleTypes.cpp:461 TEST(SimpleTypes, deserialize_fault_end_of_buffer_fixed) *)
Example SimpleTypes_deserialize_fault_end_of_buffer_fixed :
  des Test_Simple_Types 58 (pops_end [0x49; 0xFF; 0xFF]) = Done (EndOfBuffer, shows_all (repeat 0 15)).
Proof. vm_compute. reflexivity. Qed.
(** test/test_SimpleTypes.cpp:480 TEST(SimpleTypes, deserialize_fault_end_of_buffer_bool) *)
Example SimpleTypes_deserialize_fault_end_of_buffer_bool :
  des Test_Simple_Types 58 (pops_end [0x38]) = Done (EndOfBuffer, shows_all (repeat 0 15)).
Proof. vm_compute. reflexivity. Qed.
(** test/test_SimpleTypes.cpp:499 TEST(SimpleTypes, deserialize_enum_beond_range) *)
Example SimpleTypes_deserialize_enum_beond_range : exists e,
  des Test_Simple_Types 2 (pops_end [0x78; 0x03]) = Done (NoErrors, shows_all (repeat 0 14 ++ [e]))
  /\ e <> 0 /\ e <> 1 /\ e <> 2.
Proof. exists 3. split; [vm_compute; reflexivity|lia]. Qed.
(** test/test_SimpleTypes.cpp:525 TEST(SimpleTypes, deserialize_fault_overlong_varint) *)
Example SimpleTypes_deserialize_fault_overlong_varint :
  des Test_Simple_Types 11 (pops [0x10; 0xFF; 0xFF; 0xFF; 0xFF; 0xFF; 0xFF; 0xFF; 0xFF; 0xFF; 0xFF]) = Done (OverlongVarint, shows_all (repeat 0 15)).
Proof. vm_compute. reflexivity. Qed.

Definition int32_and_uint32 : sval := shows_all (i32_max :: 0 :: u32_max :: repeat 0 12).
(** test/test_unkown_fields.cpp:55 TEST(UnknownFields, varint) *)
Example UnknownFields_varint : des Test_Simple_Types 19 (pops_end [0x08; 0xFF; 0xFF; 0xFF; 0xFF; 0x07; 0x90; 0x03; 0xFF; 0xFF; 0xFF; 0xFF; 0x0F; 0x18; 0xFF; 0xFF; 0xFF; 0xFF; 0x0F]) = Done (NoErrors, int32_and_uint32).
Proof. vm_compute. reflexivity. Qed.
(** test/test_unkown_fields.cpp:82 TEST(UnknownFields, fixed32) *)
Example UnknownFields_fixed32 : des Test_Simple_Types 18 (pops_end [0x08; 0xFF; 0xFF; 0xFF; 0xFF; 0x07; 0x9D; 0x03; 0xFF; 0xFF; 0xFF; 0xFF; 0x18; 0xFF; 0xFF; 0xFF; 0xFF; 0x0F]) = Done (NoErrors, int32_and_uint32).
Proof. vm_compute. reflexivity. Qed.
(** test/test_unkown_fields.cpp:109 TEST(UnknownFields, fixed64) *)
Example UnknownFields_fixed64 : des Test_Simple_Types 22 (pops_end [0x08; 0xFF; 0xFF; 0xFF; 0xFF; 0x07; 0xA1; 0x03; 0xFF; 0xFF; 0xFF; 0xFF; 0xFF; 0xFF; 0xFF; 0xFF; 0x18; 0xFF; 0xFF; 0xFF; 0xFF; 0x0F]) = Done (NoErrors, int32_and_uint32).
Proof. vm_compute. reflexivity. Qed.
(** test/test_unkown_fields.cpp:136 TEST(UnknownFields, length_delimited) The five bytes are skipped by one call advance(5). *)
Example UnknownFields_length_delimited : des Test_Simple_Types 20
    (pops [0x08; 0xFF; 0xFF; 0xFF; 0xFF; 0x07] ++ pops [0xaa; 0x03; 0x05] ++ [AdvanceN 5]
     ++ pops_end [0x18; 0xFF; 0xFF; 0xFF; 0xFF; 0x0F]) = Done (NoErrors, int32_and_uint32).
Proof. vm_compute. reflexivity. Qed.

(* ------------------------------------------------------------------------------------------- *)
(** ** test_NestedMessage.cpp *)

(** test/proto/nested_message.proto:36-83, with SIZE_MSG_A = 3 and SIZE_MSG_D = 5 *)
Definition message_a : ety := EMsg [(1, KRep 3, EScalar Int32); (2, KPlain, EScalar FloatFixed); (3, KPlain, EScalar SInt64)] [].
Definition message_b : ety := EMsg [(1, KPlain, EScalar DoubleFixed); (2, KPlain, message_a); (3, KPlain, EScalar Int32)] [].
Definition message_d : ety := EMsg [(1, KRep 5, EScalar UInt32)] [].
Definition message_g : ety := EMsg [(1, KPlain, EScalar Int32)] [].
Definition message_c : ety := EMsg [(1, KPlain, message_b); (2, KPlain, message_d); (3, KPlain, message_g)] [].
(** msg.set_u(u); msg.mutable_nested_a().add_x(x); ... set_y(y); ... set_z(z); msg.set_v(v); *)
Definition set_b (u : Z) (xs : list Z) (y z v : Z) : list op :=
  [OpField 0 (OpScalarSet u)] ++ map (fun x => OpField 1 (OpField 0 (OpRepAdd (VS x)))) xs
  ++ [OpField 1 (OpField 1 (OpScalarSet y)); OpField 1 (OpField 2 (OpScalarSet z)); OpField 2 (OpScalarSet v)].
Definition shows_b (u : Z) (xs : list Z) (y z v : Z) : sval := SvM [SvZ u; SvM [SvR (map SvZ xs); SvZ y; SvZ z] []; SvZ v] [].

(** test/test_NestedMessage.cpp:58 TEST(NestedMessage, assign_by_set) *)
Example NestedMessage_assign_by_set : exists msg_a, after message_a [OpField 2 (OpScalarSet 1)] = Done msg_a
  /\ (let* b := after message_b [OpField 1 (OpAssign msg_a)] in Done (view message_b b)) = Done (shows_b 0 [] 0 1 0).
Proof. eexists. split; [vm_compute; reflexivity|]. vm_compute. reflexivity. Qed.
(** test/test_NestedMessage.cpp:69 TEST(NestedMessage, assign_by_refrence) *)
Example NestedMessage_assign_by_refrence :
  (let* b := after message_b [OpField 1 (OpField 2 (OpScalarSet 1))] in Done (view message_b b)) = Done (shows_b 0 [] 0 1 0).
Proof. vm_compute. reflexivity. Qed.
(** test/test_NestedMessage.cpp:78 TEST(NestedMessage, serialize_zero) *)
Example NestedMessage_serialize_zero : ser message_b [] 0 [] = Done NoErrors /\ size message_b [] = Done 0.
Proof. split; vm_compute; reflexivity. Qed.
(** test/test_NestedMessage.cpp:92 TEST(NestedMessage, serialize_one) *)
Example NestedMessage_serialize_one : let ops := set_b double_one [1] float_one 1 1 in
  ser message_b ops 0 (pushes ([0x09; 0x00; 0x00; 0x00; 0x00; 0x00; 0x00; 0xF0; 0x3F] ++ [0x12; 0x0A]) ++ [Avail 12] ++ pushes [0x0A; 0x01] ++ [Avail 10]
    ++ pushes [0x01; 0x15; 0x00; 0x00; 0x80; 0x3f; 0x18; 0x02; 0x18; 0x01]) = Done NoErrors
  /\ size message_b ops = Done 23.
Proof. split; vm_compute; reflexivity. Qed.
(** test/test_NestedMessage.cpp:142 TEST(NestedMessage, serialize_max) *)
Example NestedMessage_serialize_max : let ops := set_b double_max [i32_max] float_max i64_max i32_max in
  ser message_b ops 0 (pushes ([0x09; 0xFF; 0xFF; 0xFF; 0xFF; 0xFF; 0xFF; 0xEF; 0x7F] ++ [0x12; 0x17]) ++ [Avail 29] ++ pushes [0x0A; 0x05] ++ [Avail 27]
    ++ pushes [0xFF; 0xFF; 0xFF; 0xFF; 0x07; 0x15; 0xFF; 0xFF; 0x7F; 0x7F; 0x18; 0xFE; 0xFF; 0xFF; 0xFF; 0xFF; 0xFF; 0xFF; 0xFF; 0xFF; 0x01; 0x18; 0xFF; 0xFF; 0xFF; 0xFF; 0x07]) = Done NoErrors
  /\ size message_b ops = Done 40.
Proof. split; vm_compute; reflexivity. Qed.
(** test/test_NestedMessage.cpp:191 TEST(NestedMessage, serialize_nested_in_nested_max) *)
Example NestedMessage_serialize_nested_in_nested_max :
  ser message_c (map (OpField 0) (set_b double_max [i32_max] float_max i64_max i32_max)
      ++ [OpField 1 (OpField 0 (OpRepAdd (VS u32_max))); OpField 1 (OpField 0 (OpRepAdd (VS u32_max))); OpField 2 (OpField 0 (OpScalarSet i32_max))]) 0
    (pushes [0x0A; 0x28] ++ [Avail 40] ++ pushes ([0x09; 0xFF; 0xFF; 0xFF; 0xFF; 0xFF; 0xFF; 0xEF; 0x7F] ++ [0x12; 0x17]) ++ [Avail 29]
     ++ pushes [0x0A; 0x05] ++ [Avail 27] ++ pushes ([0xFF; 0xFF; 0xFF; 0xFF; 0x07; 0x15; 0xFF; 0xFF; 0x7F; 0x7F; 0x18; 0xFE; 0xFF; 0xFF; 0xFF; 0xFF; 0xFF; 0xFF; 0xFF; 0xFF; 0x01; 0x18; 0xFF; 0xFF; 0xFF; 0xFF; 0x07] ++ [0x12; 0x0C]) ++ [Avail 12]
     ++ pushes [0x0A; 0x0A] ++ [Avail 10] ++ pushes ([0xFF; 0xFF; 0xFF; 0xFF; 0x0F; 0xFF; 0xFF; 0xFF; 0xFF; 0x0F] ++ [0x1A; 0x06]) ++ [Avail 6]
     ++ pushes [0x08; 0xFF; 0xFF; 0xFF; 0xFF; 0x07]) = Done NoErrors.
Proof. vm_compute. reflexivity. Qed.
(** test/test_NestedMessage.cpp:279 TEST(NestedMessage, deserialize_one) *)
Example NestedMessage_deserialize_one : des message_b 23 (pops_end [0x09; 0x00; 0x00; 0x00; 0x00; 0x00; 0x00; 0xF0; 0x3F; 0x12; 0x0A; 0x0A; 0x01; 0x01; 0x15; 0x00; 0x00; 0x80; 0x3F; 0x18; 0x02; 0x18; 0x01])
  = Done (NoErrors, shows_b double_one [1] float_one 1 1).
Proof. vm_compute. reflexivity. Qed.
(** test/test_NestedMessage.cpp:316 TEST(NestedMessage, deserialize_nested_in_nested_max) *)
Example NestedMessage_deserialize_nested_in_nested_max : des message_c 64 (pops_end [0x0A; 0x28; 0x09; 0xFF; 0xFF; 0xFF; 0xFF; 0xFF; 0xFF; 0xEF; 0x7F; 0x12; 0x17; 0x0A; 0x05; 0xFF; 0xFF; 0xFF; 0xFF; 0x07; 0x15; 0xFF; 0xFF; 0x7F; 0x7F; 0x18; 0xFE; 0xFF; 0xFF; 0xFF; 0xFF; 0xFF; 0xFF; 0xFF; 0xFF; 0x01; 0x18; 0xFF; 0xFF; 0xFF; 0xFF; 0x07; 0x12; 0x0C; 0x0A; 0x0A; 0xFF; 0xFF; 0xFF; 0xFF; 0x0F; 0xFF; 0xFF; 0xFF; 0xFF; 0x0F; 0x1A; 0x06; 0x08; 0xFF; 0xFF; 0xFF; 0xFF; 0x07])
  = Done (NoErrors, SvM [shows_b double_max [i32_max] float_max i64_max i32_max; SvM [SvR [SvZ u32_max; SvZ u32_max]] []; SvM [SvZ i32_max] []] []).
Proof. vm_compute. reflexivity. Qed.

(* ------------------------------------------------------------------------------------------- *)
(** ** test_oneof_fields.cpp *)

(** test/proto/oneof_fields.proto:35-94 *)
Definition some_ABC : ety := EMsg [(1, KPlain, EScalar Int32); (2, KPlain, EScalar Int32); (3, KPlain, EScalar Int32)] [].
Definition some_DEF : ety := some_ABC.
Definition message_oneof : ety := EMsg [(1, KPlain, EScalar Int32); (10, KPlain, EScalar Int32)]
  [[(5, EScalar Int32); (6, EScalar Int32); (7, EScalar Int32); (8, EScalar Enumeration)];
   [(15, EScalar FloatFixed); (16, EScalar FloatFixed); (17, EScalar FloatFixed)]; [(20, some_ABC); (21, some_DEF)]].
Definition nested_oneof : ety := EMsg [(1, KPlain, message_oneof)] [].
Definition string_bytes_oneof (a b : Z) : ety := EMsg [] [[(1, EBytes true a); (2, EBytes false b)]].
(** set_<member>(z) of a member of the first two oneofs. *)
Definition set_xyz (id z : Z) : op := OpOneof 0 id (OpScalarSet z).
Definition set_uvw (id z : Z) : op := OpOneof 1 id (OpScalarSet z).
Definition set_ABC (a b c : Z) : list op :=
  [OpOneof 2 20 (OpField 0 (OpScalarSet a)); OpOneof 2 20 (OpField 1 (OpScalarSet b)); OpOneof 2 20 (OpField 2 (OpScalarSet c))].
Definition not_set : Z * sval := (0, SvNone).
Definition is_set (id : Z) (x : sval) : Z * sval := (id, SvSome x).
Definition show (t : ety) (ops : list op) : res sval := let* v := after t ops in Done (view t v).

(** test/test_oneof_fields.cpp:57 TEST(OneofField, serialize_zero) *)
Example OneofField_serialize_zero : ser message_oneof [] 0 [] = Done NoErrors.
Proof. vm_compute. reflexivity. Qed.
(** test/test_oneof_fields.cpp:69 TEST(OneofField, set_get_clear) The object after each part of the test. *)
Example OneofField_set_get_clear :
  let t := message_oneof in
  let o1 := [set_xyz 5 1] in let o2 := o1 ++ [OpOneofClear 0 5] in
  let o3 := o2 ++ [set_xyz 6 1] in let o4 := o3 ++ [OpOneofClear 0 6] in
  let o5 := o4 ++ [set_xyz 7 1] in let o6 := o5 ++ [OpOneofClear 0 7] in
  let o7 := o6 ++ [set_xyz 8 1] in let o8 := o7 ++ [OpOneofClear 0 8] in
  let o9 := o8 ++ set_ABC 1 22 333 in let o10 := o9 ++ [OpOneofClear 2 20] in
  let o11 := o10 ++ [set_xyz 5 1; OpOneof 2 20 (OpField 0 (OpScalarSet 1))] in let o12 := o11 ++ [OpClear] in
  let xyz o := SvM [SvZ 0; SvZ 0] [o; not_set; not_set] in
  show t [] = Done (xyz not_set) /\ show t o1 = Done (xyz (is_set 5 (SvZ 1))) /\ show t o2 = Done (xyz not_set)
  /\ show t o3 = Done (xyz (is_set 6 (SvZ 1))) /\ show t o4 = Done (xyz not_set)
  /\ show t o5 = Done (xyz (is_set 7 (SvZ 1))) /\ show t o6 = Done (xyz not_set)
  /\ show t o7 = Done (xyz (is_set 8 (SvZ 1))) /\ show t o8 = Done (xyz not_set)
  /\ show t o9 = Done (SvM [SvZ 0; SvZ 0] [not_set; not_set; is_set 20 (SvM [SvZ 1; SvZ 22; SvZ 333] [])])
  /\ show t o10 = Done (xyz not_set)
  /\ show t o11 = Done (SvM [SvZ 0; SvZ 0] [is_set 5 (SvZ 1); not_set; is_set 20 (SvM [SvZ 1; SvZ 0; SvZ 0] [])])
  /\ show t o12 = Done (xyz not_set)
  /\ (let* v := after t o1 in let* w := which_oneof v 0 in let* h := has_member v 0 5 in Done (w, h)) = Done (5, true)
  /\ (let* v := after t o2 in let* w := which_oneof v 0 in let* h := has_member v 0 6 in Done (w, h)) = Done (0, false).
Proof. cbv zeta. repeat split; vm_compute; reflexivity. Qed.
(** test/test_oneof_fields.cpp:129 TEST(OneofField, serizlize_set_zeros) *)
Example OneofField_serizlize_set_zeros :
  ser message_oneof [set_xyz 5 0; OpOneof 2 20 OpClear; set_uvw 15 0] 0 (pushes [0x28; 0x00; 0x7d; 0x00; 0x00; 0x00; 0x00; 0xa2; 0x01; 0x00]) = Done NoErrors.
Proof. vm_compute. reflexivity. Qed.
(** test/test_oneof_fields.cpp:156 TEST(OneofField, serialize_ones) *)
Example OneofField_serialize_ones : let ops := [OpField 0 (OpScalarSet 1); OpField 1 (OpScalarSet 1); set_xyz 5 1] in
  ser message_oneof ops 0 (pushes [0x08; 0x01; 0x50; 0x01; 0x28; 0x01]) = Done NoErrors
  /\ ser message_oneof (ops ++ [set_xyz 6 1]) 0 (pushes [0x08; 0x01; 0x50; 0x01; 0x30; 0x01]) = Done NoErrors
  /\ ser message_oneof (ops ++ [set_xyz 6 1; set_xyz 7 1]) 0 (pushes [0x08; 0x01; 0x50; 0x01; 0x38; 0x01]) = Done NoErrors.
Proof. repeat split; vm_compute; reflexivity. Qed.
(** test/test_oneof_fields.cpp:202 TEST(OneofField, serialize_second_oneof) *)
Example OneofField_serialize_second_oneof :
  ser message_oneof [OpField 0 (OpScalarSet 1); OpField 1 (OpScalarSet 1); set_xyz 5 1; set_uvw 16 float_one] 0
    (pushes [0x08; 0x01; 0x50; 0x01; 0x28; 0x01; 0x85; 0x01; 0x00; 0x00; 0x80; 0x3f]) = Done NoErrors.
Proof. vm_compute. reflexivity. Qed.
(** test/test_oneof_fields.cpp:226 TEST(OneofField, deserialize) *)
Example OneofField_deserialize : des message_oneof 0 (pops_end [0x08; 0x01; 0x50; 0x01; 0x30; 0x01])
  = Done (NoErrors, SvM [SvZ 1; SvZ 1] [is_set 6 (SvZ 1); not_set; not_set]).
Proof. vm_compute. reflexivity. Qed.
(** test/test_oneof_fields.cpp:250 TEST(OneofField, deserialize_override) *)
Example OneofField_deserialize_override : des message_oneof 0 (pops_end [0x08; 0x01; 0x50; 0x01; 0x30; 0x01; 0x28; 0x01])
  = Done (NoErrors, SvM [SvZ 1; SvZ 1] [is_set 5 (SvZ 1); not_set; not_set]).
Proof. vm_compute. reflexivity. Qed.
(** test/test_oneof_fields.cpp:275 TEST(OneofField, deserialize_failure) *)
Example OneofField_deserialize_failure : des message_oneof 0 [Pop (Some 0x30); Pop None]
  = Done (EndOfBuffer, SvM [SvZ 0; SvZ 0] [not_set; not_set; not_set]).
Proof. vm_compute. reflexivity. Qed.
(** test/test_oneof_fields.cpp:290 TEST(OneofField, deserialize_second_oneof) (its last line reads a member that is not active). *)
Example OneofField_deserialize_second_oneof : des message_oneof 0 (pops_end [0x08; 0x01; 0x50; 0x01; 0x28; 0x01; 0x85; 0x01; 0x00; 0x00; 0x80; 0x3f])
  = Done (NoErrors, SvM [SvZ 1; SvZ 1] [is_set 5 (SvZ 1); is_set 16 (SvZ float_one); not_set]).
Proof. vm_compute. reflexivity. Qed.
(** test/test_oneof_fields.cpp:317 TEST(OneofField, serialize_oneof_msg) *)
Example OneofField_serialize_oneof_msg :
  ser message_oneof (set_ABC 1 1 1) 0 (pushes [0xA2; 0x01; 0x06] ++ [Avail 99] ++ pushes [0x08; 0x01; 0x10; 0x01; 0x18; 0x01]) = Done NoErrors.
Proof. vm_compute. reflexivity. Qed.
(** test/test_oneof_fields.cpp:348 TEST(OneofField, deserialize_oneof_msg) *)
Example OneofField_deserialize_oneof_msg : des message_oneof 10 (pops_end [0xaa; 0x01; 0x07; 0x08; 0x01; 0x10; 0x16; 0x18; 0xcd; 0x02])
  = Done (NoErrors, SvM [SvZ 0; SvZ 0] [not_set; not_set; is_set 21 (SvM [SvZ 1; SvZ 22; SvZ 333] [])]).
Proof. vm_compute. reflexivity. Qed.
(** test/test_oneof_fields.cpp:373 TEST(OneofField, nested_assign) *)
Example OneofField_nested_assign : exists nested_msg, after message_oneof (set_ABC 1 22 333) = Done nested_msg
  /\ show nested_oneof [OpField 0 (OpAssign nested_msg)]
     = Done (SvM [SvM [SvZ 0; SvZ 0] [not_set; not_set; is_set 20 (SvM [SvZ 1; SvZ 22; SvZ 333] [])]] []).
Proof. eexists. split; [vm_compute; reflexivity|]. vm_compute. reflexivity. Qed.
(** A C string as the array that holds it. *)
Definition c_str (s : string) : option (list Z) := Some (chars s ++ [0]).
(** test/test_oneof_fields.cpp:395 TEST(OneofField, sb_oneof_has) *)
Example OneofField_sb_oneof_has : let t := string_bytes_oneof 10 10 in
  let o1 := [OpOneof 0 1 (OpCStr (c_str "John Doe"))] in let o2 := o1 ++ [OpOneof 0 1 OpClear] in let o3 := o2 ++ [OpOneofClear 0 1] in
  let o4 := o3 ++ [OpOneof 0 2 (OpBytesSet [1; 2; 3] 3)] in let o5 := o4 ++ [OpOneofClear 0 2] in
  let has ops id := let* v := after t ops in has_member v 0 id in
  has o1 1 = Done true /\ has o2 1 = Done true /\ has o3 1 = Done false /\ has o4 2 = Done true /\ has o5 2 = Done false.
Proof. cbv zeta. repeat split; vm_compute; reflexivity. Qed.
(** test/test_oneof_fields.cpp:413 TEST(OneofField, sb_oneof_serialize_empty) *)
Example OneofField_sb_oneof_serialize_empty : let t := string_bytes_oneof 10 10 in
  ser t [OpOneof 0 1 OpClear] 0 (pushes [0x0a; 0x00]) = Done NoErrors
  /\ ser t [OpOneof 0 1 OpClear; OpOneof 0 2 OpClear] 0 (pushes [0x12; 0x00]) = Done NoErrors.
Proof. split; vm_compute; reflexivity. Qed.

(* ------------------------------------------------------------------------------------------- *)
(** ** test_optional_fields.cpp *)

(** test/proto/optional_fields.proto:36-101 *)
Definition position : ety := EMsg [(1, KPlain, EScalar DoubleFixed); (2, KPlain, EScalar DoubleFixed); (3, KPlain, EScalar DoubleFixed)] [].
Definition optional_fields_of (nb ns : Z) : list fdesc :=
  [(1, KPlain, EScalar Int32); (2, KOpt, EScalar Int32); (3, KPlain, EScalar FloatFixed); (4, KOpt, EScalar FloatFixed);
   (5, KOpt, position); (6, KOpt, EScalar Enumeration); (7, KOpt, EBytes false nb); (8, KOpt, EBytes true ns)].
Definition optional_fields : ety := EMsg (optional_fields_of 5 10) [].
Definition many_opt_fields : ety := EMsg (map (fun n => (Z.of_nat n, KOpt, EScalar Int32)) (seq 1 33)) [].
(** has_b(), has_y(), has_pos(), has_state(), has_bytes_array(), has_str(). *)
Definition flags_of (v : value) : list (res bool) := map (has_field (optional_fields_of 5 10) v) [1%nat; 3%nat; 4%nat; 5%nat; 6%nat; 7%nat].
Definition flags (ops : list op) : res (list (res bool)) := let* v := after optional_fields ops in Done (flags_of v).
Definition answers (l : list bool) : res (list (res bool)) := Done (map Done l).
(** test/test_optional_fields.cpp:49 TEST(OptionalFields, zero) *)
Example OptionalFields_zero :
  flags [] = answers [false; false; false; false; false; false]
  /\ flags [OpField 1 (OpScalarSet 0)] = answers [true; false; false; false; false; false]
  /\ flags [OpField 1 (OpScalarSet 0); OpClearField 1] = answers [false; false; false; false; false; false]
  /\ flags [OpField 3 (OpScalarSet 0)] = answers [false; true; false; false; false; false]
  /\ flags [OpField 3 (OpScalarSet 0); OpClearField 3] = answers [false; false; false; false; false; false]
  /\ flags [OpField 4 OpClear] = answers [false; false; true; false; false; false]
  /\ flags [OpField 4 OpClear; OpClearField 4] = answers [false; false; false; false; false; false]
  /\ flags [OpField 5 (OpScalarSet 0)] = answers [false; false; false; true; false; false]
  /\ flags [OpField 5 (OpScalarSet 0); OpClearField 5] = answers [false; false; false; false; false; false]
  /\ flags [OpField 6 OpClear] = answers [false; false; false; false; true; false]
  /\ flags [OpField 6 OpClear; OpClearField 6] = answers [false; false; false; false; false; false]
  /\ flags [OpField 7 OpClear] = answers [false; false; false; false; false; true]
  /\ flags [OpField 7 OpClear; OpClearField 7] = answers [false; false; false; false; false; false].
Proof. repeat split; vm_compute; reflexivity. Qed.
Definition set_some : list op := [OpField 1 (OpScalarSet 1); OpField 4 (OpField 0 (OpScalarSet double_one)); OpField 5 (OpScalarSet 1);
  OpField 6 (OpBytesPut 0 1); OpField 7 (OpBytesSet (chars "ABC") 3)].
(** test/test_optional_fields.cpp:97 TEST(OptionalFields, construction_assignment) *)
Example OptionalFields_construction_assignment : exists msgA, after optional_fields set_some = Done msgA
  /\ (let* v := copy_construct optional_fields msgA in Done (flags_of v)) = answers [true; false; true; true; true; true]
  /\ flags [OpAssign msgA] = answers [true; false; true; true; true; true].
Proof. eexists. split; [vm_compute; reflexivity|]. split; vm_compute; reflexivity. Qed.
(** test/test_optional_fields.cpp:132 TEST(OptionalFields, clear) *)
Example OptionalFields_clear : let ops := set_some ++ [OpField 3 (OpScalarSet float_one)] in
  flags ops = answers [true; true; true; true; true; true]
  /\ flags (ops ++ [OpClearField 3]) = answers [true; false; true; true; true; true]
  /\ flags (ops ++ [OpClearField 3; OpClearField 5]) = answers [true; false; true; false; true; true]
  /\ flags (ops ++ [OpClearField 3; OpClearField 5; OpClearField 7]) = answers [true; false; true; false; true; false].
Proof. repeat split; vm_compute; reflexivity. Qed.
(** test/test_optional_fields.cpp:178 TEST(OptionalFields, empty_serialization) *)
Example OptionalFields_empty_serialization :
  ser optional_fields [OpField 1 (OpScalarSet 0); OpField 3 (OpScalarSet 0); OpField 4 OpClear; OpField 5 (OpScalarSet 0); OpField 6 OpClear;
    OpField 7 OpClear] 0 (pushes [0x10; 0x00; 0x25; 0x00; 0x00; 0x00; 0x00; 0x2a; 0x00; 0x30; 0x00; 0x3a; 0x00; 0x42; 0x00]) = Done NoErrors.
Proof. vm_compute. reflexivity. Qed.
(** test/test_optional_fields.cpp:207 TEST(OptionalFields, cleared_serialization) *)
Example OptionalFields_cleared_serialization :
  ser optional_fields [OpClearField 1; OpClearField 3; OpClearField 4; OpClearField 5; OpClearField 6; OpClearField 7] 0 [] = Done NoErrors.
Proof. vm_compute. reflexivity. Qed.
(** test/test_optional_fields.cpp:227 TEST(OptionalFields, empty_deserialization) *)
Example OptionalFields_empty_deserialization : des optional_fields 15 (pops_end [0x10; 0x00; 0x25; 0x00; 0x00; 0x00; 0x00; 0x2a; 0x00; 0x30; 0x00; 0x3a; 0x00; 0x42; 0x00])
  = Done (NoErrors, SvM [SvZ 0; SvSome (SvZ 0); SvZ 0; SvSome (SvZ 0); SvSome (SvM [SvZ 0; SvZ 0; SvZ 0] []); SvSome (SvZ 0); SvSome (SvB []);
      SvSome (SvB [])] []).
Proof. vm_compute. reflexivity. Qed.
(** test/test_optional_fields.cpp:261 TEST(OptionalFields, cleared_deserialization) *)
Example OptionalFields_cleared_deserialization : des optional_fields 0 [Pop None]
  = Done (NoErrors, SvM [SvZ 0; SvNone; SvZ 0; SvNone; SvNone; SvNone; SvNone; SvNone] []).
Proof. vm_compute. reflexivity. Qed.
(** test/test_optional_fields.cpp:285 TEST(OptionalFields, presence_size) *)
Example OptionalFields_presence_size :
  let fs := match many_opt_fields with EMsg fs _ => fs | _ => [] end in
  let has ops pos := let* v := after many_opt_fields ops in has_field fs v pos in
  has [OpField 32 (OpScalarSet 1)] 32%nat = Done true /\ has [OpField 32 (OpScalarSet 1)] 31%nat = Done false
  /\ has [OpField 32 (OpScalarSet 1); OpField 31 (OpScalarSet 1)] 31%nat = Done true.
Proof. repeat split; vm_compute; reflexivity. Qed.

(* ------------------------------------------------------------------------------------------- *)
(** ** test_empty_messages.cpp, test_field_options.cpp, test_IncludeOtherFiles.cpp *)

(** test/proto/empty_message.proto:34-36 *)
Definition empty_message : ety := EMsg [] [].
(** test/test_empty_messages.cpp:55 TEST(EmptyMessage, clear) *)
Example EmptyMessage_clear : show empty_message [OpClear] = Done (SvM [] []).
Proof. vm_compute. reflexivity. Qed.
(** test/test_empty_messages.cpp:61 TEST(EmptyMessage, serialize) *)
Example EmptyMessage_serialize : ser empty_message [] 0 [] = Done NoErrors.
Proof. vm_compute. reflexivity. Qed.
(** test/test_empty_messages.cpp:68 TEST(EmptyMessage, deserialize) *)
Example EmptyMessage_deserialize : des empty_message 0 (pops_end [0x08; 0x01]) = Done (NoErrors, SvM [] []).
Proof. vm_compute. reflexivity. Qed.

(** test/proto/field_options.proto:69-74 *)
Definition OneofWithMaxLength : ety := EMsg [] [[(1, EBytes false 100); (2, EBytes true 256)]].
(** test/test_field_options.cpp:67 TEST(FieldOptions, oneof_clear) *)
Example FieldOptions_oneof_clear : let t := OneofWithMaxLength in
  let o1 := [OpOneof 0 1 (OpBytesSet [1; 2; 3; 4; 5] 5)] in let o2 := o1 ++ [OpClear; OpOneof 0 1 OpTouch] in
  let o3 := o2 ++ [OpOneof 0 2 (OpCStr (c_str "hello"))] in let o4 := o3 ++ [OpClear; OpOneof 0 2 OpTouch] in
  show t o1 = Done (SvM [] [is_set 1 (SvB [1; 2; 3; 4; 5])]) /\ show t o2 = Done (SvM [] [is_set 1 (SvB [])])
  /\ show t o3 = Done (SvM [] [is_set 2 (SvB (chars "hello"))]) /\ show t o4 = Done (SvM [] [is_set 2 (SvB [])]).
Proof. cbv zeta. repeat split; vm_compute; reflexivity. Qed.

(** test/proto/repeated_fields.proto:35-60 *)
Definition repeated_fields : ety := EMsg [(1, KPlain, EScalar UInt32); (2, KRep 3, EScalar UInt32); (3, KPlain, EScalar UInt32)] [].
Definition repeated_nested_message : ety := EMsg [(1, KPlain, EScalar UInt32); (2, KPlain, EScalar UInt32)] [].
Definition repeated_message : ety := EMsg [(1, KPlain, EScalar UInt32); (2, KRep 3, repeated_nested_message); (3, KPlain, EScalar UInt32)] [].
Definition nested_repeated_message : ety := EMsg [(1, KPlain, repeated_fields)] [].
Definition repeated_enum : ety := EMsg [(1, KRep 3, EScalar Enumeration)] [].
Definition add_y (z : Z) : op := OpField 1 (OpRepAdd (VS z)).
Definition set_xz (x z : Z) : list op := [OpField 0 (OpScalarSet x); OpField 2 (OpScalarSet z)].

(** test/proto/file_to_include.proto:42-51, include_other_files.proto:50-61, subfolder/file_to_include_from_subfolder.proto:38-49 *)
Definition CommonMessage : ety := EMsg [(1, KPlain, EScalar UInt32); (2, KPlain, EScalar FloatFixed)] [].
Definition other_folder_msg : ety := EMsg [(1, KPlain, EScalar Int32); (2, KRep 2, EScalar Int32); (3, KPlain, EScalar Enumeration)] [].
Definition IncludedMessages : ety :=
  EMsg [(1, KPlain, EScalar Enumeration); (2, KPlain, CommonMessage); (3, KPlain, repeated_fields); (4, KPlain, other_folder_msg)] [].
(** test/test_IncludeOtherFiles.cpp:58 TEST(IncludeOtherFiles, zero) *)
Example IncludeOtherFiles_zero : ser IncludedMessages [] 99 [] = Done NoErrors /\ size IncludedMessages [] = Done 0.
Proof. split; vm_compute; reflexivity. Qed.
(** test/test_IncludeOtherFiles.cpp:75 TEST(IncludeOtherFiles, set_time); TimeMessage: test/proto/include_other_files.proto:59-61 *)
Example IncludeOtherFiles_set_time :
  show (EMsg [(1, KPlain, EMsg [(1, KPlain, EScalar Int64); (2, KPlain, EScalar Int32)] [])] [])
    [OpField 0 (OpField 0 (OpScalarSet 12345)); OpField 0 (OpField 1 (OpScalarSet 9876))] = Done (SvM [SvM [SvZ 12345; SvZ 9876] []] []).
Proof. vm_compute. reflexivity. Qed.
(** test/test_IncludeOtherFiles.cpp:85 TEST(IncludeOtherFiles, set) *)
Example IncludeOtherFiles_set : exists cmsg, after CommonMessage [OpField 0 (OpScalarSet 1); OpField 1 (OpScalarSet float_one)] = Done cmsg
  /\ ser IncludedMessages ([OpField 0 (OpScalarSet 1); OpField 1 (OpAssign cmsg)]
       ++ map (OpField 2) ([OpField 0 (OpScalarSet 1); add_y 1; add_y 1; add_y 1; OpField 2 (OpScalarSet 1)])
       ++ map (OpField 3) ([OpField 0 (OpScalarSet 1); add_y 1; add_y 1; OpField 2 (OpScalarSet 1)])) 99
     (pushes [0x08; 0x01; 0x12; 0x07; 0x08; 0x01; 0x15; 0x00; 0x00; 0x80; 0x3f; 0x1a; 0x09; 0x08; 0x01; 0x12; 0x03; 0x01; 0x01; 0x01; 0x18; 0x01; 0x22; 0x08; 0x08; 0x01; 0x12; 0x02; 0x01; 0x01; 0x18; 0x01]) = Done NoErrors.
Proof. eexists. split; [vm_compute; reflexivity|]. vm_compute. reflexivity. Qed.
(** test/test_IncludeOtherFiles.cpp:138 TEST(IncludeOtherFiles, get) *)
Example IncludeOtherFiles_get : des IncludedMessages 32 (pops_end [0x08; 0x01; 0x12; 0x07; 0x08; 0x01; 0x15; 0x00; 0x00; 0x80; 0x3f; 0x1a; 0x09; 0x08; 0x01; 0x12; 0x03; 0x01; 0x01; 0x01; 0x18; 0x01; 0x22; 0x08; 0x08; 0x01; 0x12; 0x02; 0x01; 0x01; 0x18; 0x01])
  = Done (NoErrors, SvM [SvZ 1; SvM [SvZ 1; SvZ float_one] []; SvM [SvZ 1; SvR [SvZ 1; SvZ 1; SvZ 1]; SvZ 1] [];
                         SvM [SvZ 1; SvR [SvZ 1; SvZ 1]; SvZ 1] []] []).
Proof. vm_compute. reflexivity. Qed.

(* ------------------------------------------------------------------------------------------- *)
(** ** test_RepeatedFieldMessage.cpp *)

(** test/test_RepeatedFieldMessage.cpp:61 TEST(RepeatedFieldMessage, serialize_empty_fields) *)
Example RepeatedFieldMessage_serialize_empty_fields : ser repeated_fields [] 99 [] = Done NoErrors /\ size repeated_fields [] = Done 0.
Proof. split; vm_compute; reflexivity. Qed.
(** test/test_RepeatedFieldMessage.cpp:75 TEST(RepeatedFieldMessage, serialize_empty_message) *)
Example RepeatedFieldMessage_serialize_empty_message : ser repeated_message [] 99 [] = Done NoErrors /\ size repeated_message [] = Done 0.
Proof. split; vm_compute; reflexivity. Qed.
(** test/test_RepeatedFieldMessage.cpp:89 TEST(RepeatedFieldMessage, serialize_array_zero_fields) *)
Example RepeatedFieldMessage_serialize_array_zero_fields :
  ser repeated_fields [add_y 0; add_y 0; add_y 0] 0 (pushes [0x12; 0x03] ++ [Avail 3] ++ pushes [0x00; 0x00; 0x00])
  = Done NoErrors.
Proof. vm_compute. reflexivity. Qed.
Definition rnm (u v : Z) : value := VM [] [VS u; VS v] [].
(** test/test_RepeatedFieldMessage.cpp:115 TEST(RepeatedFieldMessage, serialize_array_zero_messages) *)
Example RepeatedFieldMessage_serialize_array_zero_messages :
  ser repeated_message [OpField 1 (OpRepAdd (rnm 0 0)); OpField 1 (OpRepAdd (rnm 0 0)); OpField 1 (OpRepAdd (rnm 0 0))] 0
    (Avail 6 :: pushes [0x12; 0x00; 0x12; 0x00; 0x12; 0x00]) = Done NoErrors
  /\ after repeated_nested_message [OpField 0 (OpScalarSet 0); OpField 1 (OpScalarSet 0)] = Done (rnm 0 0).
Proof. split; vm_compute; reflexivity. Qed.
(** test/test_RepeatedFieldMessage.cpp:144 TEST(RepeatedFieldMessage, serialize_array_zero_one_zero) *)
Example RepeatedFieldMessage_serialize_array_zero_one_zero :
  ser repeated_fields [add_y 0; add_y 1; add_y 0] 0 (pushes [0x12; 0x03] ++ [Avail 3] ++ pushes [0x00; 0x01; 0x00])
  = Done NoErrors.
Proof. vm_compute. reflexivity. Qed.
(** test/test_RepeatedFieldMessage.cpp:170 TEST(RepeatedFieldMessage, serialize_array_zero_one_zero_messages) The mock answers get_available_size() once with 10; the
    nested message has 4 bytes. *)
Example RepeatedFieldMessage_serialize_array_zero_one_zero_messages :
  ser repeated_message [OpField 1 (OpRepAdd (rnm 0 0)); OpField 1 (OpRepAdd (rnm 1 1)); OpField 1 (OpRepAdd (rnm 0 0))] 0
    (Avail 10 :: pushes [0x12; 0x00; 0x12; 0x04; 0x08; 0x01; 0x10; 0x01; 0x12; 0x00]) = Done NoErrors.
Proof. vm_compute. reflexivity. Qed.
(** test/test_RepeatedFieldMessage.cpp:209 TEST(RepeatedFieldMessage, serialize_array_one) *)
Example RepeatedFieldMessage_serialize_array_one :
  ser repeated_fields [add_y 1; add_y 1; add_y 1] 0 (pushes [0x12; 0x03] ++ [Avail 3] ++ pushes [0x01; 0x01; 0x01])
  = Done NoErrors.
Proof. vm_compute. reflexivity. Qed.
(** test/test_RepeatedFieldMessage.cpp:237 TEST(RepeatedFieldMessage, serialize_array_max) *)
Example RepeatedFieldMessage_serialize_array_max :
  ser repeated_fields [add_y u32_max; add_y u32_max; add_y u32_max] 0
    (pushes [0x12; 0x0F] ++ [Avail 15] ++ pushes [0xff; 0xff; 0xff; 0xff; 0x0f; 0xff; 0xff; 0xff; 0xff; 0x0f; 0xff; 0xff; 0xff; 0xff; 0x0f]) = Done NoErrors.
Proof. vm_compute. reflexivity. Qed.
(** test/test_RepeatedFieldMessage.cpp:267 TEST(RepeatedFieldMessage, serialize_one) *)
Example RepeatedFieldMessage_serialize_one :
  ser repeated_fields (set_xz 1 1 ++ [add_y 1; add_y 1; add_y 1]) 0
    (pushes ([0x08; 0x01] ++ [0x12; 0x03]) ++ [Avail 5] ++ pushes [0x01; 0x01; 0x01; 0x18; 0x01]) = Done NoErrors.
Proof. vm_compute. reflexivity. Qed.
(** test/test_RepeatedFieldMessage.cpp:302 TEST(RepeatedFieldMessage, serialize_max) *)
Example RepeatedFieldMessage_serialize_max :
  ser repeated_fields (set_xz u32_max u32_max ++ [add_y u32_max; add_y u32_max; add_y u32_max]) 0
    (pushes ([0x08; 0xff; 0xff; 0xff; 0xff; 0x0f] ++ [0x12; 0x0F]) ++ [Avail 21] ++ pushes [0xff; 0xff; 0xff; 0xff; 0x0f; 0xff; 0xff; 0xff; 0xff; 0x0f; 0xff; 0xff; 0xff; 0xff; 0x0f; 0x18; 0xff; 0xff; 0xff; 0xff; 0x0f]) = Done NoErrors.
Proof. vm_compute. reflexivity. Qed.
(** test/test_RepeatedFieldMessage.cpp:339 TEST(RepeatedFieldMessage, serialize_fault_buffer_full) *)
Example RepeatedFieldMessage_serialize_fault_buffer_full :
  ser repeated_fields [add_y 1; add_y 1; add_y 1] 0 (pushes [0x12; 0x03] ++ [Avail 2]) = Done BufferFull.
Proof. vm_compute. reflexivity. Qed.
(** test/test_RepeatedFieldMessage.cpp:358 TEST(RepeatedFieldMessage, deserialize_empty_array) *)
Example RepeatedFieldMessage_deserialize_empty_array : des repeated_fields 0 [Pop None] = Done (NoErrors, SvM [SvZ 0; SvR []; SvZ 0] []).
Proof. vm_compute. reflexivity. Qed.
(** test/test_RepeatedFieldMessage.cpp:370 TEST(RepeatedFieldMessage, deserialize_empty_message_array) *)
Example RepeatedFieldMessage_deserialize_empty_message_array :
  des repeated_message 0 [Pop None] = Done (NoErrors, SvM [SvZ 0; SvR []; SvZ 0] []).
Proof. vm_compute. reflexivity. Qed.
(** test/test_RepeatedFieldMessage.cpp:381 TEST(RepeatedFieldMessage, deserialize_one) *)
Example RepeatedFieldMessage_deserialize_one : des repeated_fields 9 (pops_end [0x08; 0x01; 0x12; 0x03; 0x01; 0x01; 0x01; 0x18; 0x01])
  = Done (NoErrors, SvM [SvZ 1; SvR [SvZ 1; SvZ 1; SvZ 1]; SvZ 1] []).
Proof. vm_compute. reflexivity. Qed.
Definition three : sval := SvR [SvM [SvZ 0; SvZ 0] []; SvM [SvZ 1; SvZ 1] []; SvM [SvZ 0; SvZ 0] []].
(** test/test_RepeatedFieldMessage.cpp:413 TEST(RepeatedFieldMessage, deserialize_one_message_array) *)
Example RepeatedFieldMessage_deserialize_one_message_array :
  des repeated_message 14 (pops_end [0x08; 0x01; 0x12; 0x00; 0x12; 0x04; 0x08; 0x01; 0x10; 0x01; 0x12; 0x00; 0x18; 0x01]) = Done (NoErrors, SvM [SvZ 1; three; SvZ 1] []).
Proof. vm_compute. reflexivity. Qed.
(** test/test_RepeatedFieldMessage.cpp:447 TEST(RepeatedFieldMessage, deserialize_mixed_message_array) *)
Example RepeatedFieldMessage_deserialize_mixed_message_array :
  des repeated_message 14 (pops_end [0x12; 0x00; 0x08; 0x01; 0x12; 0x04; 0x08; 0x01; 0x10; 0x01; 0x18; 0x01; 0x12; 0x00]) = Done (NoErrors, SvM [SvZ 1; three; SvZ 1] []).
Proof. vm_compute. reflexivity. Qed.
(** test/test_RepeatedFieldMessage.cpp:486 TEST(RepeatedFieldMessage, deserialize_max) *)
Example RepeatedFieldMessage_deserialize_max : des repeated_fields 29 (pops_end [0x08; 0xff; 0xff; 0xff; 0xff; 0x0f; 0x12; 0x0f; 0xff; 0xff; 0xff; 0xff; 0x0f; 0xff; 0xff; 0xff; 0xff; 0x0f; 0xff; 0xff; 0xff; 0xff; 0x0f; 0x18; 0xff; 0xff; 0xff; 0xff; 0x0f])
  = Done (NoErrors, SvM [SvZ u32_max; SvR [SvZ u32_max; SvZ u32_max; SvZ u32_max]; SvZ u32_max] []).
Proof. vm_compute. reflexivity. Qed.
(** test/test_RepeatedFieldMessage.cpp:518 TEST(RepeatedFieldMessage, assign_a_nested_message) *)
Example RepeatedFieldMessage_assign_a_nested_message : exists nested_msg, after repeated_fields [add_y 1; add_y 2; add_y 3] = Done nested_msg
  /\ show nested_repeated_message [OpField 0 (OpAssign nested_msg)] = Done (SvM [SvM [SvZ 0; SvR [SvZ 1; SvZ 2; SvZ 3]; SvZ 0] []] []).
Proof. eexists. split; [vm_compute; reflexivity|]. vm_compute. reflexivity. Qed.
Definition add_abc : list op := [OpField 0 (OpRepAdd (VS 0)); OpField 0 (OpRepAdd (VS 1)); OpField 0 (OpRepAdd (VS 2))].
(** test/test_RepeatedFieldMessage.cpp:542 TEST(RepeatedFieldMessage, assign_repeated_enum) *)
Example RepeatedFieldMessage_assign_repeated_enum : show repeated_enum add_abc = Done (SvM [SvR [SvZ 0; SvZ 1; SvZ 2]] []).
Proof. vm_compute. reflexivity. Qed.
(** test/test_RepeatedFieldMessage.cpp:554 TEST(RepeatedFieldMessage, serialize_repeated_enum) *)
Example RepeatedFieldMessage_serialize_repeated_enum :
  ser repeated_enum add_abc 0 (pushes [0x0a; 0x03] ++ [Avail 3] ++ pushes [0x00; 0x01; 0x02]) = Done NoErrors.
Proof. vm_compute. reflexivity. Qed.
(** test/test_RepeatedFieldMessage.cpp:580 TEST(RepeatedFieldMessage, deserialize_repeated_enum) *)
Example RepeatedFieldMessage_deserialize_repeated_enum :
  des repeated_enum 5 (pops_end [0x0a; 0x03; 0x00; 0x01; 0x02]) = Done (NoErrors, SvM [SvR [SvZ 0; SvZ 1; SvZ 2]] []).
Proof. vm_compute. reflexivity. Qed.

(* ------------------------------------------------------------------------------------------- *)
(** ** test_RepeatedFieldFixedSize.cpp *)

(** RepeatedFieldFixedSize<uint32, 3> after some calls, with the errors they returned. *)
Fixpoint run_all (ops : list op) (ty : oty) (v : value) : res (list err * value) :=
  match ops with
  | [] => Done ([], v)
  | o :: ops' => let* (e, v') := run_op 100 o ty v in let* (es, v'') := run_all ops' ty v' in Done (e :: es, v'')
  end.
Definition rep3 (ops : list op) : res (list err * value) := run_all ops (ORep 3 (EScalar UInt32)) (construct (ORep 3 (EScalar UInt32))).
(** get_length() and get_const(0), get_const(1), ... up to index [n] - 1, which for large indices is the last element. *)
Definition reads (n : nat) (v : value) : Z * list (res value) :=
  match v with VR len data => (len, map (fun i => rep_get_const data (Z.of_nat i)) (seq 0 n)) | _ => (0, []) end.
(** test/test_RepeatedFieldFixedSize.cpp:41 TEST(RepeatedFieldFixedSize, construction) *)
Example RepeatedFieldFixedSize_construction : exists x, rep3 [OpRepAdd (VS 1); OpRepAdd (VS 2)] = Done ([NoErrors; NoErrors], x)
  /\ (let* y := rep_copy_construct (EScalar UInt32) x in Done (reads 2 y)) = Done (2, [Done (VS 1); Done (VS 2)])
  /\ (let* z := rep_construct_from_smaller (EScalar UInt32) 6 x in Done (reads 2 z)) = Done (2, [Done (VS 1); Done (VS 2)]).
Proof. eexists. split; [vm_compute; reflexivity|]. split; vm_compute; reflexivity. Qed.
(** test/test_RepeatedFieldFixedSize.cpp:60 TEST(RepeatedFieldFixedSize, size_uint32_t) *)
Example RepeatedFieldFixedSize_size_uint32_t : exists x, rep3 [] = Done ([], VR 0 x) /\ zlen x = 3.
Proof. eexists. split; vm_compute; reflexivity. Qed.
(** test/test_RepeatedFieldFixedSize.cpp:78 TEST(RepeatedFieldFixedSize, add_data) *)
Example RepeatedFieldFixedSize_add_data :
  (let* (es, v) := rep3 [OpRepAdd (VS 1); OpRepAdd (VS 2)] in Done (fst (reads 0 v))) = Done 2
  /\ (let* (es, v) := rep3 [OpRepAdd (VS 1); OpRepAdd (VS 2); OpRepAdd (VS 3); OpRepAdd (VS 4)] in Done (es, fst (reads 0 v)))
     = Done ([NoErrors; NoErrors; NoErrors; ArrayFull], 3).
Proof. split; vm_compute; reflexivity. Qed.
(** test/test_RepeatedFieldFixedSize.cpp:101 TEST(RepeatedFieldFixedSize, get) *)
Example RepeatedFieldFixedSize_get :
  (let* (es, v) := rep3 [OpRepAt 1 (OpScalarSet 1)] in Done (reads 3 v)) = Done (2, [Done (VS 0); Done (VS 1); Done (VS 0)])
  /\ (let* (es, v) := rep3 [OpRepAt 1 (OpScalarSet 1); OpRepAt 3 (OpScalarSet 3)] in Done (reads 4 v))
     = Done (3, [Done (VS 0); Done (VS 1); Done (VS 3); Done (VS 3)])
  /\ (let* (es, v) := rep3 [OpRepAt 1 (OpScalarSet 1); OpRepAt 3 (OpScalarSet 3)] in rep_get_const_checked v 1) = Done (NoErrors, Some (VS 1))
  /\ (let* (es, v) := rep3 [OpRepAt 1 (OpScalarSet 1); OpRepAt 3 (OpScalarSet 3)] in rep_get_const_checked v 3) = Done (IndexOutOfBound, None).
Proof. repeat split; vm_compute; reflexivity. Qed.
(** test/test_RepeatedFieldFixedSize.cpp:131 TEST(RepeatedFieldFixedSize, set_data_array) *)
Example RepeatedFieldFixedSize_set_data_array :
  (let* (es, v) := rep3 [OpRepSetData [VS 1; VS 2; VS 3] 3; OpRepSetData [VS 1; VS 2; VS 3; VS 4] 4] in Done (es, reads 3 v))
  = Done ([NoErrors; ArrayFull], (3, [Done (VS 1); Done (VS 2); Done (VS 3)])).
Proof. vm_compute. reflexivity. Qed.
(** test/test_RepeatedFieldFixedSize.cpp:152 TEST(RepeatedFieldFixedSize, set_element) *)
Example RepeatedFieldFixedSize_set_element :
  (let* (es, v) := rep3 [OpRepSet 1 (VS 2)] in Done (reads 2 v)) = Done (2, [Done (VS 0); Done (VS 2)])
  /\ (let* (es, v) := rep3 [OpRepSet 1 (VS 2); OpRepSet 0 (VS 1); OpRepSet 2 (VS 3)] in Done (reads 3 v))
     = Done (3, [Done (VS 1); Done (VS 2); Done (VS 3)]).
Proof. split; vm_compute; reflexivity. Qed.
(** test/test_RepeatedFieldFixedSize.cpp:169 TEST(RepeatedFieldFixedSize, clear) *)
Example RepeatedFieldFixedSize_clear :
  (let* (es, v) := rep3 [OpRepAdd (VS 1); OpRepAdd (VS 2); OpClear] in Done (reads 2 v)) = Done (0, [Done (VS 0); Done (VS 0)]).
Proof. vm_compute. reflexivity. Qed.

(* ------------------------------------------------------------------------------------------- *)
(** ** test_string_bytes.cpp *)

(** test/proto/string_bytes.proto:35-69 *)
Definition text (n : Z) : ety := EMsg [(1, KPlain, EBytes true n)] [].
Definition raw_bytes (n : Z) : ety := EMsg [(1, KPlain, EBytes false n)] [].
Definition string_or_bytes (n1 n2 n3 n4 : Z) : ety :=
  EMsg [(3, KPlain, text n1); (4, KPlain, raw_bytes n2)] [[(1, EBytes true n3); (2, EBytes false n4)]].
Definition repeated_string_bytes (r1 n1 r2 n2 n3 n4 : Z) : ety :=
  EMsg [(1, KRep r1, EBytes true n1); (2, KRep r2, EBytes false n2); (3, KPlain, text n3); (4, KPlain, raw_bytes n4)] [].
(** The object of the only field, its get_length() and the C string get_const() points to. *)
Definition only_field (v : value) : value := match v with VM _ [x] _ => x | _ => VIndet end.
Definition length_of (v : value) : Z := match v with VB len _ => len | _ => -1 end.
Definition bytes_of (v : value) : list Z := match v with VB _ data => data | _ => [] end.
Definition set_txt (s : string) : op := OpField 0 (OpCStr (c_str s)).
(** get_txt().get_length() and the C string. *)
Definition txt (n : Z) (ops : list op) : res (Z * res (list Z)) :=
  let* v := after (text n) ops in Done (length_of (only_field v), string_c_str (only_field v)).
Definition says (len : Z) (s : string) : res (Z * res (list Z)) := Done (len, Done (chars s)).
(** test/test_string_bytes.cpp:56 TEST(FieldString, get_set) Where the string is as long as the array there is no terminating zero in it: the test reads the byte
    behind the array (UB in the model); here the characters in the array are compared instead. *)
Example FieldString_get_set :
  let o1 := [set_txt "Foo Bar"] in
  let o2 := o1 ++ [OpField 0 (OpBytesPut 0 102); OpField 0 (OpBytesPut 4 98)] in
  let o3 := o2 ++ [OpField 0 (OpBytesPut 7 32); OpField 0 (OpBytesPut 8 50)] in
  let o4 := o3 ++ [set_txt "Foo bar 3!"] in
  let o5 := o4 ++ [set_txt "Foo bar 4!"] in
  let o6 := o5 ++ [OpClear; set_txt "Foo bar"] in
  let o7 := o6 ++ [OpClear; set_txt "Foo bar 6"] in
  let o8 := o7 ++ [OpClear; set_txt "12345678901234567890"] in
  let full ops := let* v := after (text 10) ops in Done (length_of (only_field v), bytes_of (only_field v)) in
  txt 10 o1 = says 7 "Foo Bar" /\ txt 10 o2 = says 7 "foo bar" /\ txt 10 o3 = says 9 "foo bar 2"
  /\ full o4 = Done (10, chars "Foo bar 3!") /\ full o5 = Done (10, chars "Foo bar 4!")
  /\ txt 10 o6 = says 7 "Foo bar" /\ txt 10 o7 = says 9 "Foo bar 6" /\ full o8 = Done (10, chars "1234567890").
Proof. cbv zeta. repeat split; vm_compute; reflexivity. Qed.
(** test/test_string_bytes.cpp:126 TEST(FieldString, set_smaller) *)
Example FieldString_set_smaller : exists a1 a2,
  after (text 10) [set_txt "Foo bar"] = Done (VM [] [a1] []) /\ after (text 10) [set_txt "Foo bar"; OpClear; set_txt "1234"] = Done (VM [] [a2] [])
  /\ (let* (e, b) := bytes_set_from (construct (OElem (EBytes true 5))) a1 in Done (e, length_of b)) = Done (ArrayFull, 0)
  /\ (let* b := bytes_assign_any (construct (OElem (EBytes true 5))) a1 in Done (length_of b)) = Done 0
  /\ (let* (e, b) := bytes_set_from (construct (OElem (EBytes true 5))) a2 in Done (e, length_of b, string_c_str b)) = Done (NoErrors, 4, Done (chars "1234"))
  /\ (let* b := bytes_assign_any (construct (OElem (EBytes true 5))) a2 in Done (length_of b, string_c_str b)) = Done (4, Done (chars "1234")).
Proof. do 2 eexists. split; [vm_compute; reflexivity|]. split; [vm_compute; reflexivity|]. repeat split; vm_compute; reflexivity. Qed.
(** test/test_string_bytes.cpp:156 TEST(FieldString, set_larger) *)
Example FieldString_set_larger : exists a, after (text 10) [set_txt "Foo bar"] = Done (VM [] [a] [])
  /\ (let* (e, b) := bytes_set_from (construct (OElem (EBytes true 15))) a in Done (e, length_of b, string_c_str b)) = Done (NoErrors, 7, Done (chars "Foo bar"))
  /\ (let* b := bytes_assign_any (construct (OElem (EBytes true 15))) a in Done (length_of b, string_c_str b)) = Done (7, Done (chars "Foo bar")).
Proof. eexists. split; [vm_compute; reflexivity|]. split; vm_compute; reflexivity. Qed.
(** test/test_string_bytes.cpp:175 TEST(FieldString, clear) *)
Example FieldString_clear :
  txt 10 [set_txt "Foo Bar"] = says 7 "Foo Bar" /\ txt 10 [set_txt "Foo Bar"; OpClearField 0] = says 0 ""
  /\ txt 10 [set_txt "Foo Bar"; OpClear] = says 0 "" /\ txt 10 [set_txt "Foo Bar"; OpField 0 (OpCStr None)] = says 0 "".
Proof. repeat split; vm_compute; reflexivity. Qed.
(** test/test_string_bytes.cpp:199 TEST(FieldString, serialize) *)
Example FieldString_serialize : ser (text 10) [set_txt "Foo bar"] 0 (Avail 17 :: pushes [0x0a; 0x07] ++ [PushN 7 true]) = Done NoErrors.
Proof. vm_compute. reflexivity. Qed.
(** test/test_string_bytes.cpp:223 TEST(FieldString, serialize_buffer_full) *)
Example FieldString_serialize_buffer_full : ser (text 10) [set_txt "Foo bar"] 0 [Avail 5] = Done BufferFull.
Proof. vm_compute. reflexivity. Qed.
(** The error, and length and C string of the only field, after decoding. *)
Definition des_field (t : ety) (script : list rcall) : res (err * Z * res (list Z)) :=
  let* (e, v, s) := deserialize 100 t _ (rmock 0) (construct (OElem t)) script in
  match s with [] => Done (e, length_of (only_field v), string_c_str (only_field v)) | _ => UB end.
(** test/test_string_bytes.cpp:238 TEST(FieldString, deserialize) *)
Example FieldString_deserialize : des_field (text 10) (pops_end [0x0a; 0x07; 0x46; 0x6f; 0x6f; 0x20; 0x62; 0x61; 0x72]) = Done (NoErrors, 7, Done (chars "Foo bar")).
Proof. vm_compute. reflexivity. Qed.
(** test/test_string_bytes.cpp:259 TEST(FieldString, deserialize_error_invalid_wiretype) *)
Example FieldString_deserialize_error_invalid_wiretype : des_field (text 10) (pops [0x09]) = Done (InvalidWiretype, 0, Done []).
Proof. vm_compute. reflexivity. Qed.
(** test/test_string_bytes.cpp:272 TEST(FieldString, deserialize_array_full) *)
Example FieldString_deserialize_array_full : des_field (text 3) (pops [0x0a; 0x07]) = Done (ArrayFull, 0, Done []).
Proof. vm_compute. reflexivity. Qed.
(** test/test_string_bytes.cpp:292 TEST(FieldString, deserialize_end_of_buffer) *)
Example FieldString_deserialize_end_of_buffer : des_field (text 10) (pops_end [0x0a; 0x07; 0x46; 0x6f; 0x6f; 0x20; 0x62])
  = Done (EndOfBuffer, 5, Done (chars "Foo b")).
Proof. vm_compute. reflexivity. Qed.
(** test/test_string_bytes.cpp:314 TEST(FieldString, oneof_serialize) *)
Example FieldString_oneof_serialize : ser (string_or_bytes 3 3 10 10) [OpOneof 0 1 (OpCStr (c_str "Foo bar"))] 0
    (Avail 99 :: pushes [0x0a; 0x07] ++ [PushN 7 true]) = Done NoErrors.
Proof. vm_compute. reflexivity. Qed.
Definition sob (o : Z * sval) : sval := SvM [SvM [SvB []] []; SvM [SvB []] []] [o].
(** test/test_string_bytes.cpp:339 TEST(FieldString, oneof_deserialize) *)
Example FieldString_oneof_deserialize : des (string_or_bytes 3 3 10 10) 0 (pops_end [0x0a; 0x07; 0x46; 0x6f; 0x6f; 0x20; 0x62; 0x61; 0x72])
  = Done (NoErrors, sob (is_set 1 (SvB (chars "Foo bar")))).
Proof. vm_compute. reflexivity. Qed.
(** test/test_string_bytes.cpp:574 TEST(FieldString, oneof_assign) *)
Example FieldString_oneof_assign : exists msgA, after (string_or_bytes 3 3 10 10) [OpOneof 0 1 (OpCStr (c_str "Foo Bar"))] = Done msgA
  /\ show (string_or_bytes 3 3 10 10) [OpAssign msgA] = Done (sob (is_set 1 (SvB (chars "Foo Bar")))).
Proof. eexists. split; [vm_compute; reflexivity|]. vm_compute. reflexivity. Qed.

(** The field b of raw_bytes<n> after some calls, with the errors. *)
Definition bytes_field (n : Z) (ops : list op) : res (list err * value) := run_all ops (OElem (EBytes false n)) (construct (OElem (EBytes false n))).
(** test/test_string_bytes.cpp:360 TEST(FieldBytes, set_get) *)
Example FieldBytes_set_get :
  let o1 := [OpBytesPut 0 1] in let o2 := o1 ++ [OpClear] in let o3 := o2 ++ [OpBytesPut 1 2] in let o4 := o3 ++ [OpBytesPut 10 11] in
  let o5 := o4 ++ [OpBytesSet [0; 0; 0; 0; 0; 0; 0; 0; 0; 0; 11] 11] in
  let o6 := o5 ++ [OpClear; OpBytesPut 0 0; OpBytesPut 1 1; OpBytesPut 2 2; OpBytesPut 3 3; OpBytesPut 4 4] in
  let at_ ops i := let* (es, v) := bytes_field 10 ops in bytes_get_const v i in
  let len ops := let* (es, v) := bytes_field 10 ops in Done (length_of v) in
  let into n ops := let* (es, v) := bytes_field 10 ops in let* (e, w) := bytes_set_from (construct (OElem (EBytes false n))) v in
                    Done (e, view (EBytes false n) w) in
  let assigned n ops := let* (es, v) := bytes_field 10 ops in let* w := bytes_assign_any (construct (OElem (EBytes false n))) v in
                        Done (view (EBytes false n) w) in
  len o1 = Done 1 /\ at_ o1 0 = Done 1
  /\ (let* (es, v) := bytes_field 10 o1 in bytes_get_const_checked v 0) = Done (NoErrors, Some 1)
  /\ (let* (es, v) := bytes_field 10 o1 in bytes_get_const_checked v 1) = Done (IndexOutOfBound, None)
  /\ len o2 = Done 0 /\ at_ o2 0 = Done 0
  /\ len o3 = Done 2 /\ at_ o3 0 = Done 0 /\ at_ o3 1 = Done 2
  /\ len o4 = Done 10 /\ at_ o4 9 = Done 11 /\ at_ o4 10 = Done 11
  /\ (let* (es, v) := bytes_field 10 o5 in Done (last es NoErrors)) = Done ArrayFull
  /\ into 5 o5 = Done (ArrayFull, SvB [])
  /\ into 5 o6 = Done (NoErrors, SvB [0; 1; 2; 3; 4]) /\ assigned 5 o6 = Done (SvB [0; 1; 2; 3; 4])
  /\ into 15 o6 = Done (NoErrors, SvB [0; 1; 2; 3; 4]) /\ assigned 15 o6 = Done (SvB [0; 1; 2; 3; 4]).
Proof. cbv zeta. repeat split; vm_compute; reflexivity. Qed.
(** test/test_string_bytes.cpp:444 TEST(FieldBytes, assign_msg) *)
Example FieldBytes_assign_msg : exists msgA, after (raw_bytes 10) [OpField 0 (OpBytesSet [1; 2; 3; 4; 5; 6; 7; 8; 9; 10] 10)] = Done msgA
  /\ show (raw_bytes 10) [OpAssign msgA] = Done (SvM [SvB [1; 2; 3; 4; 5; 6; 7; 8; 9; 10]] []).
Proof. eexists. split; [vm_compute; reflexivity|]. vm_compute. reflexivity. Qed.
(** test/test_string_bytes.cpp:457 TEST(FieldBytes, clear) and test/test_string_bytes.cpp:556 TEST(FieldBytes, oneof_clear) *)
Example FieldBytes_clear : let set2 := OpField 0 (OpBytesSet [1; 2] 2) in
  show (raw_bytes 10) [set2] = Done (SvM [SvB [1; 2]] []) /\ show (raw_bytes 10) [set2; OpClearField 0] = Done (SvM [SvB []] [])
  /\ show (raw_bytes 10) [set2; OpClear] = Done (SvM [SvB []] []).
Proof. repeat split; vm_compute; reflexivity. Qed.
(** test/test_string_bytes.cpp:475 TEST(FieldBytes, serialize) *)
Example FieldBytes_serialize : ser (raw_bytes 10) [OpField 0 (OpBytesSet [1; 2; 3; 0] 4)] 0
    (Avail 17 :: pushes [0x0a; 0x04] ++ [PushN 4 true]) = Done NoErrors.
Proof. vm_compute. reflexivity. Qed.
(** test/test_string_bytes.cpp:498 TEST(FieldBytes, deserialize) *)
Example FieldBytes_deserialize : des (raw_bytes 10) 0 (pops_end [0x0a; 0x04; 0x01; 0x02; 0x03; 0x00]) = Done (NoErrors, SvM [SvB [1; 2; 3; 0]] []).
Proof. vm_compute. reflexivity. Qed.
(** test/test_string_bytes.cpp:522 TEST(FieldBytes, deserialize_error_invalid_wiretype) *)
Example FieldBytes_deserialize_error_invalid_wiretype : des (raw_bytes 10) 0 (pops [0x09]) = Done (InvalidWiretype, SvM [SvB []] []).
Proof. vm_compute. reflexivity. Qed.
(** test/test_string_bytes.cpp:535 TEST(FieldBytes, oneof_set_get) *)
Example FieldBytes_oneof_set_get : let o1 := [OpOneof 0 1 (OpCStr (c_str "Foo Bar"))] in
  show (string_or_bytes 3 3 10 10) o1 = Done (sob (is_set 1 (SvB (chars "Foo Bar"))))
  /\ show (string_or_bytes 3 3 10 10) (o1 ++ [OpOneof 0 2 (OpBytesSet [1; 2; 3; 4; 5] 5)]) = Done (sob (is_set 2 (SvB [1; 2; 3; 4; 5]))).
Proof. split; vm_compute; reflexivity. Qed.
(** test/test_string_bytes.cpp:587 TEST(FieldBytes, oneof_serialize) *)
Example FieldBytes_oneof_serialize : ser (string_or_bytes 3 3 10 10) [OpOneof 0 2 (OpBytesSet [1; 2; 3; 0] 4)] 0
    (Avail 17 :: pushes [0x12; 0x04] ++ [PushN 4 true]) = Done NoErrors.
Proof. vm_compute. reflexivity. Qed.
(** test/test_string_bytes.cpp:613 TEST(FieldBytes, oneof_deserialize) *)
Example FieldBytes_oneof_deserialize : des (string_or_bytes 3 3 10 10) 0 (pops_end [0x12; 0x04; 0x01; 0x02; 0x03; 0x00])
  = Done (NoErrors, sob (is_set 2 (SvB [1; 2; 3; 0]))).
Proof. vm_compute. reflexivity. Qed.

Definition rsb : ety := repeated_string_bytes 3 15 3 15 3 3.
(** FieldString<15> str; *)
Definition empty_str : value := construct (OElem (EBytes true 15)).
(** msg.add_array_of_txt(str); msg.mutable_array_of_txt(i) = s; *)
Definition add_then (i : Z) (s : string) : list op := [OpField 0 (OpRepAdd empty_str); OpField 0 (OpRepAt i (OpCStr (c_str s)))].
Definition rsb_view (txts datas : list (list Z)) (t b : list Z) : sval := SvM [SvR (map SvB txts); SvR (map SvB datas); SvM [SvB t] []; SvM [SvB b] []] [].
(** test/test_string_bytes.cpp:637 TEST(RepeatedStringBytes, empty) *)
Example RepeatedStringBytes_empty : ser rsb [] 0 [] = Done NoErrors.
Proof. vm_compute. reflexivity. Qed.
(** test/test_string_bytes.cpp:644 TEST(RepeatedStringBytes, get_set) *)
Example RepeatedStringBytes_get_set : exists str, run_ops 100 [OpCStr (c_str "Foo bar 3")] (OElem (EBytes true 15)) empty_str = Done str
  /\ show rsb (add_then 0 "Foo bar 1" ++ add_then 1 "Foo bar 2" ++ [OpField 0 (OpRepAdd str)])
     = Done (rsb_view [chars "Foo bar 1"; chars "Foo bar 2"; chars "Foo bar 3"] [] [] []).
Proof. eexists. split; [vm_compute; reflexivity|]. vm_compute. reflexivity. Qed.
(** test/test_string_bytes.cpp:664 TEST(RepeatedStringBytes, assign_msg) *)
Example RepeatedStringBytes_assign_msg : exists str b1 b2 msgA, run_ops 100 [OpCStr (c_str "Foo bar 3")] (OElem (EBytes true 15)) empty_str = Done str
  /\ run_ops 100 [OpBytesPut 0 1] (OElem (EBytes false 15)) (construct (OElem (EBytes false 15))) = Done b1
  /\ run_ops 100 [OpBytesPut 1 2] (OElem (EBytes false 15)) b1 = Done b2
  /\ after rsb (add_then 0 "Foo bar 1" ++ add_then 1 "Foo bar 2" ++ [OpField 0 (OpRepAdd str); OpField 1 (OpRepAdd b1); OpField 1 (OpRepAdd b2)]) = Done msgA
  /\ show rsb [OpAssign msgA] = Done (rsb_view [chars "Foo bar 1"; chars "Foo bar 2"; chars "Foo bar 3"] [[1]; [1; 2]] [] []).
Proof. do 4 eexists. do 4 (split; [vm_compute; reflexivity|]). vm_compute. reflexivity. Qed.
(** test/test_string_bytes.cpp:703 TEST(RepeatedStringBytes, serialize) *)
Example RepeatedStringBytes_serialize : ser rsb (add_then 0 "Foo bar 1" ++ add_then 1 "" ++ add_then 2 "Foo bar 3") 0
    ([Avail 24; Push 0x0a true; Push 0x09 true; PushN 9 true; Push 0x0a true; Push 0x00 true; Push 0x0a true; Push 0x09 true; PushN 9 true; Avail 0])
  = Done NoErrors.
Proof. vm_compute. reflexivity. Qed.
(** test/test_string_bytes.cpp:745 TEST(RepeatedStringBytes, deserialize) *)
Example RepeatedStringBytes_deserialize : des rsb 0
    (pops_end ([0x0a; 0x09] ++ [0x46; 0x6f; 0x6f; 0x20; 0x62; 0x61; 0x72; 0x20; 0x31] ++ [0x0a; 0x00; 0x0a; 0x09] ++ [0x46; 0x6f; 0x6f; 0x20; 0x62; 0x61; 0x72; 0x20; 0x33]))
  = Done (NoErrors, rsb_view [chars "Foo bar 1"; []; chars "Foo bar 3"] [] [] []).
Proof. vm_compute. reflexivity. Qed.

(* ------------------------------------------------------------------------------------------- *)
(** ** Buffers: test_MessageSizeCalculator.cpp, test_ReadBufferFixedSize.cpp, test_ReadBufferSection.cpp, test_WriteBufferFixedSize.cpp *)

(** test/test_MessageSizeCalculator.cpp:42 TEST(MessageSizeCalculator, push) *)
Example MessageSizeCalculator_push :
  w_push calc_ops 0 0 = Done (true, 1) /\ w_push calc_ops 1 0 = Done (true, 2) /\ w_get_size calc_ops 2 = 2 /\ w_get_size calc_ops (w_clear calc_ops 2) = 0.
Proof. repeat split; vm_compute; reflexivity. Qed.
(** test/test_MessageSizeCalculator.cpp:57 TEST(MessageSizeCalculator, push_n) *)
Example MessageSizeCalculator_push_n : w_pushn calc_ops 0 [1; 2; 3] 3 = Done (true, 3).
Proof. vm_compute. reflexivity. Qed.
(** test/test_MessageSizeCalculator.cpp:67 TEST(MessageSizeCalculator, unlimited_size) *)
Example MessageSizeCalculator_unlimited_size : w_get_max_size calc_ops 0 = u32_max /\ w_get_available_size calc_ops 0 = u32_max.
Proof. split; vm_compute; reflexivity. Qed.

(** test/test_ReadBufferFixedSize.cpp:37 TEST(ReadBufferFixedSize, construction) *)
Example ReadBufferFixedSize_construction : let b := rfix_init 3 in let R := rfix_ops 3 in
  r_get_size R b = 0 /\ r_get_max_size R b = 3 /\ r_peek R b = Done None /\ r_advance R b = Done (false, b) /\ r_advance_n R b 1 = Done (false, b)
  /\ r_pop R b = Done (None, b).
Proof. repeat split; vm_compute; reflexivity. Qed.
(** test/test_ReadBufferFixedSize.cpp:53 TEST(ReadBufferFixedSize, push) *)
Example ReadBufferFixedSize_push : exists b1 b2 b3,
  rfix_push 3 (rfix_init 3) 0 = Done (true, b1) /\ rfix_push 3 b1 1 = Done (true, b2) /\ rfix_push 3 b2 2 = Done (true, b3) /\ rfix_push 3 b3 3 = Done (false, b3)
  /\ map (r_get_size (rfix_ops 3)) [b1; b2; b3] = [1; 2; 3].
Proof. do 3 eexists. repeat (split; [vm_compute; reflexivity|]). vm_compute. reflexivity. Qed.
(** memcpy(buffer.get_data(), {0, 1, 2}, 3); buffer.set_bytes_written(3); *)
Definition loaded : rfix := rfix_set_bytes_written 3 {| rf_data := [0; 1; 2]; rf_w := 0; rf_r := 0 |} 3.
(** test/test_ReadBufferFixedSize.cpp:71 TEST(ReadBufferFixedSize, get_data) *)
Example ReadBufferFixedSize_get_data : r_get_size (rfix_ops 3) loaded = 3.
Proof. vm_compute. reflexivity. Qed.
(** test/test_ReadBufferFixedSize.cpp:83 TEST(ReadBufferFixedSize, pop) and test/test_ReadBufferFixedSize.cpp:104 TEST(ReadBufferFixedSize, peak) *)
Example ReadBufferFixedSize_pop : let R := rfix_ops 3 in exists b1 b2 b3,
  r_pop R loaded = Done (Some 0, b1) /\ r_pop R b1 = Done (Some 1, b2) /\ r_pop R b2 = Done (Some 2, b3) /\ r_pop R b3 = Done (None, b3)
  /\ map (r_peek R) [loaded; b1; b2; b3] = [Done (Some 0); Done (Some 1); Done (Some 2); Done None].
Proof. cbv zeta. do 3 eexists. repeat (split; [vm_compute; reflexivity|]). vm_compute. reflexivity. Qed.
(** test/test_ReadBufferFixedSize.cpp:136 TEST(ReadBufferFixedSize, advance) *)
Example ReadBufferFixedSize_advance : let R := rfix_ops 3 in exists b1 b2 b3 b4 b5 b6 c1 c2 c3,
  rfix_push 3 (rfix_init 3) 0 = Done (true, b1) /\ r_advance R b1 = Done (true, b2) /\ r_advance R b2 = Done (false, b2)
  /\ rfix_push 3 b2 1 = Done (true, b3) /\ rfix_push 3 b3 2 = Done (true, b4) /\ r_advance R b4 = Done (true, b5) /\ r_advance R b5 = Done (true, b6)
  /\ r_advance R (rfix_clear b6) = Done (false, rfix_clear b6)
  /\ rfix_push 3 (rfix_clear b6) 0 = Done (true, c1) /\ rfix_push 3 c1 1 = Done (true, c2)
  /\ r_advance_n R c2 2 = Done (true, c3) /\ exists c4, r_advance_n R c3 2 = Done (false, c4).
Proof.
  cbv zeta. do 9 eexists. do 11 (split; [vm_compute; reflexivity|]). eexists. vm_compute. reflexivity.
Qed.

(** The section of the tests: the mock answers get_size() with [size]. *)
Definition sec (size : Z) (script : list rcall) (n : Z) : section (list rcall) := mk_section (rmock size) script n.
(** test/test_ReadBufferSection.cpp:47 TEST(ReadBufferSection, construction) and test/test_ReadBufferSection.cpp:57 TEST(ReadBufferSection, construction_limited) *)
Example ReadBufferSection_construction :
  sec_max (sec 99 [] 1) = 1 /\ sec_size (sec 99 [] 1) = 1 /\ sec_max (sec 1 [] 2) = 1 /\ sec_size (sec 1 [] 2) = 1.
Proof. repeat split; vm_compute; reflexivity. Qed.
(** test/test_ReadBufferSection.cpp:67 TEST(ReadBufferSection, peek) on a ReadBufferFixedSize with one byte instead of the mock. *)
Example ReadBufferSection_peek : sec_peek (rfix_ops 1) (mk_section (rfix_ops 1) (rfix_of [1]) 1) = Done (Some 1).
Proof. vm_compute. reflexivity. Qed.
(** test/test_ReadBufferSection.cpp:80 TEST(ReadBufferSection, advance) Two calls of advance() reach the buffer. *)
Example ReadBufferSection_advance : exists s1 s2 s3, sec_advance (rmock 3) (sec 3 [Advance; Advance] 2) = Done (false, s1)
  /\ sec_advance (rmock 3) s1 = Done (false, s2) /\ sec_advance (rmock 3) s2 = Done (false, s3)
  /\ map sec_size [sec 3 [] 2; s1; s2; s3] = [2; 1; 0; 0] /\ sec_parent s3 = [].
Proof. do 3 eexists. repeat (split; [vm_compute; reflexivity|]). vm_compute. reflexivity. Qed.
(** test/test_ReadBufferSection.cpp:105 TEST(ReadBufferSection, advance_n) *)
Example ReadBufferSection_advance_n : exists s1 s2, sec_advance_n (rmock 3) (sec 3 [AdvanceN 2; AdvanceN 1] 3) 2 = Done (false, s1)
  /\ sec_advance_n (rmock 3) s1 2 = Done (false, s2) /\ map sec_size [sec 3 [] 3; s1; s2] = [3; 1; 0] /\ sec_parent s2 = [].
Proof. do 2 eexists. repeat (split; [vm_compute; reflexivity|]). vm_compute. reflexivity. Qed.
(** test/test_ReadBufferSection.cpp:126 TEST(ReadBufferSection, pop) *)
Example ReadBufferSection_pop : exists s1, sec_pop (rmock 1) (sec 1 [Pop (Some 1)] 1) = Done (Some 1, s1) /\ sec_size s1 = 0
  /\ sec_pop (rmock 1) s1 = Done (None, s1) /\ sec_peek (rmock 1) s1 = Done None.
Proof. eexists. repeat (split; [vm_compute; reflexivity|]). vm_compute. reflexivity. Qed.

(** test/test_WriteBufferFixedSize.cpp:37 TEST(WriteBufferFixedSize, construction) and test/test_WriteBufferFixedSize.cpp:46 TEST(WriteBufferFixedSize, push_byte) *)
Example WriteBufferFixedSize_push_byte : let W := wfix_ops 3 in let b := wfix_init 3 in exists b1 b2 b3,
  w_get_size W b = 0 /\ w_get_max_size W b = 3
  /\ w_push W b 0 = Done (true, b1) /\ w_push W b1 1 = Done (true, b2) /\ w_push W b2 2 = Done (true, b3) /\ w_push W b3 3 = Done (false, b3)
  /\ map (w_get_available_size W) [b; b1; b2; b3] = [3; 2; 1; 0] /\ wf_data b3 = [0; 1; 2].
Proof. cbv zeta. do 3 eexists. repeat (split; [vm_compute; reflexivity|]). vm_compute. reflexivity. Qed.
(** test/test_WriteBufferFixedSize.cpp:66 TEST(WriteBufferFixedSize, push_c_array) *)
Example WriteBufferFixedSize_push_c_array : let W := wfix_ops 3 in exists b1,
  w_pushn W (wfix_init 3) [0; 1] 2 = Done (true, b1) /\ w_get_available_size W b1 = 1 /\ firstn 2 (wf_data b1) = [0; 1]
  /\ w_pushn W b1 [0; 1] 2 = Done (false, b1).
Proof. cbv zeta. eexists. repeat (split; [vm_compute; reflexivity|]). vm_compute. reflexivity. Qed.
(** test/test_WriteBufferFixedSize.cpp:88 TEST(WriteBufferFixedSize, clear) *)
Example WriteBufferFixedSize_clear : let W := wfix_ops 3 in exists b1,
  w_push W (wfix_init 3) 0 = Done (true, b1) /\ w_get_available_size W b1 = 2 /\ w_get_available_size W (w_clear W b1) = 3.
Proof. cbv zeta. eexists. repeat (split; [vm_compute; reflexivity|]). vm_compute. reflexivity. Qed.

(* ------------------------------------------------------------------------------------------- *)
(** ** to_string *)

(** printf("%f") of the only floating point value in the tests. *)
Definition one_fmt (sc : scalar) (z : Z) : list Z := chars "1.000000".
(** Field names by the path of field numbers. *)
Fixpoint named (l : list (list Z * string)) (path : list Z) : list Z :=
  match l with
  | [] => []
  | (p, s) :: l' => if list_eq_dec Z.eq_dec p path then chars s else named l' path
  end.
(** to_string() into an array of [n] characters: the characters up to the terminating zero, and the returned view. *)
Definition prints (t : ety) (names : list (list Z * string)) (ops : list op) (n : Z) : res (res (list Z) * Z * Z) :=
  let* v := after t ops in
  let* (mem, rest) := to_string one_fmt (named names) t v (zrepeat 120 n, {| sv_pos := 0; sv_size := n |}) in
  Done (read_cstr mem, sv_pos rest, sv_size rest).

(** test/test_SimpleTypes.cpp:562 TEST(SimpleTypes, to_string) *)
Example SimpleTypes_to_string :
  prints Test_Simple_Types [([1], "a_int32"); ([2], "a_int64"); ([3], "a_uint32"); ([4], "a_uint64"); ([5], "a_sint32"); ([6], "a_sint64"); ([7], "a_bool");
    ([8], "a_enum"); ([9], "a_fixed64"); ([10], "a_sfixed64"); ([11], "a_double"); ([12], "a_fixed32"); ([13], "a_sfixed32"); ([14], "a_float");
    ([15], "a_nested_enum")]%string (set_all ones) 1024
  = Done (Done (chars "{
  ""a_int32"": 1,
  ""a_int64"": 1,
  ""a_uint32"": 1,
  ""a_uint64"": 1,
  ""a_sint32"": 1,
  ""a_sint64"": 1,
  ""a_bool"": true,
  ""a_enum"": 1,
  ""a_fixed64"": 1,
  ""a_sfixed64"": 1,
  ""a_double"": 1.000000,
  ""a_fixed32"": 1,
  ""a_sfixed32"": 1,
  ""a_float"": 1.000000,
  ""a_nested_enum"": 1
}"), 278, 1024 - 278).
Proof. vm_compute. reflexivity. Qed.
(** test/test_NestedMessage.cpp:365 TEST(NestedMessage, to_string) *)
Example NestedMessage_to_string :
  prints message_b [([1], "u"); ([2], "nested_a"); ([3], "v"); ([2; 1], "x"); ([2; 2], "y"); ([2; 3], "z")]%string
    (set_b double_one [1; 2; 3] float_one 1 1) 1024
  = Done (Done (chars "{
  ""u"": 1.000000,
  ""nested_a"": {
    ""x"": [
           1,
           2,
           3
         ],
    ""y"": 1.000000,
    ""z"": 1
  },
  ""v"": 1
}"), 144, 1024 - 144).
Proof. vm_compute. reflexivity. Qed.
(** test/test_oneof_fields.cpp:459 TEST(OneofField, to_string) *)
Example OneofField_to_string :
  prints message_oneof [([1], "a"); ([10], "b"); ([5], "x"); ([16], "v")]%string
    [OpField 0 (OpScalarSet 1); OpField 1 (OpScalarSet 1); set_xyz 5 1; set_uvw 16 float_one] 1024
  = Done (Done (chars "{
  ""a"": 1,
  ""b"": 1,
  ""x"": 1,
  ""v"": 1.000000
}"), 49, 1024 - 49).
Proof. vm_compute. reflexivity. Qed.
(** test/test_RepeatedFieldMessage.cpp:609 TEST(RepeatedFieldMessage, to_string) *)
Example RepeatedFieldMessage_to_string :
  prints repeated_message [([1], "a"); ([2], "b"); ([3], "c"); ([2; 1], "u"); ([2; 2], "v")]%string
    [OpField 1 (OpRepAdd (rnm 0 1)); OpField 1 (OpRepAdd (rnm 2 3)); OpField 1 (OpRepAdd (rnm 4 5))] 1024
  = Done (Done (chars "{
  ""a"": 0,
  ""b"": [
         {
           ""u"": 0,
           ""v"": 1
         },
         {
           ""u"": 2,
           ""v"": 3
         },
         {
           ""u"": 4,
           ""v"": 5
         }
       ],
  ""c"": 0
}"), 220, 1024 - 220).
Proof. vm_compute. reflexivity. Qed.
(** data_field[i] = i + k for i < 10 *)
Definition ten_from (k : Z) : value := VB 10 (map (fun i => Z.of_nat i + k) (seq 0 10) ++ [0; 0; 0; 0; 0]).
(** test/test_string_bytes.cpp:802 TEST(RepeatedStringBytes, to_string) In the test the field txt is a FieldString<3> and holds the three characters A.B: there is no
    terminating zero in its array and snprintf("%s") reads behind it, so in the model the call of the test is UB. With one character
    more in that field the model prints what the test expects. *)
Definition rsb_names : list (list Z * string) :=
  [([1], "array_of_txt"); ([2], "array_of_bytes"); ([3], "nested_text"); ([4], "nested_bytes"); ([3; 1], "txt"); ([4; 1], "b")]%string.
Definition rsb_ops : list op :=
  add_then 0 "Foo bar 1" ++ add_then 1 "" ++ add_then 2 "Foo bar 3"
  ++ [OpField 1 (OpRepAdd (ten_from 0)); OpField 1 (OpRepAdd (ten_from 5)); OpField 1 (OpRepAdd (ten_from 10));
      OpField 2 (OpField 0 (OpCStr (c_str "A.B"))); OpField 3 (OpField 0 (OpBytesSet [1; 2; 3] 3))].
Example RepeatedStringBytes_to_string :
  prints (repeated_string_bytes 3 15 3 15 4 3) rsb_names rsb_ops 2048 = Done (Done (chars "{
  ""array_of_txt"": [
                    ""Foo bar 1"",
                    """",
                    ""Foo bar 3""
                  ],
  ""array_of_bytes"": [
                      [
                        0,
                        1,
                        2,
                        3,
                        4,
                        5,
                        6,
                        7,
                        8,
                        9
                      ],
                      [
                        5,
                        6,
                        7,
                        8,
                        9,
                        10,
                        11,
                        12,
                        13,
                        14
                      ],
                      [
                        10,
                        11,
                        12,
                        13,
                        14,
                        15,
                        16,
                        17,
                        18,
                        19
                      ]
                    ],
  ""nested_text"": {
    ""txt"": ""A.B""
  },
  ""nested_bytes"": {
    ""b"": [
           1,
           2,
           3
         ]
  }
}"), 1274, 2048 - 1274)
  /\ prints (repeated_string_bytes 3 15 3 15 3 3) rsb_names rsb_ops 2048 = UB.
Proof. split; vm_compute; reflexivity. Qed.
