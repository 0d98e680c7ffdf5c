(** * Property C67: the scalar type of a field is changed between two versions of a .proto file.

    [interchangeable] (SpecRetype.v) is the table of the protobuf language guide, [cast sc' z] the sender's number [z]
    cast to the receiver's type as in C++. Whole messages with such changes: C65. *)
From Verif Require Import Base Buffers Wire Schema Fields Spec Contracts SpecRetype RetypeProofs.

(** C67 is false. A negative int32 read as an int64 or uint64 is a positive number. *)
Theorem C67_negative_refuted : forall z, - 2 ^ 31 <= z < 0 ->
  exists bs, (forall S (W : wops S) rel exact, writer_ok W rel exact -> emits rel (scalar_serialize_z Int32 z W) bs)
    /\ (forall S (R : rops S) rel, reader_ok R rel ->
          reads rel (scalar_deserialize_z Int64 R) bs (z + 2 ^ 32) /\ reads rel (scalar_deserialize_z UInt64 R) bs (z + 2 ^ 32))
    /\ z + 2 ^ 32 <> cast Int64 z /\ z + 2 ^ 32 <> cast UInt64 z.
Proof. exact retype_loses_sign. Qed.
Print Assumptions C67_negative_refuted.

Example C67_negative_applies : exists b r,
  scalar_serialize_z Int32 (-2) (wfix_ops 10) (wfix_init 10) = Done (NoErrors, b)
  /\ scalar_deserialize_z Int64 (rfix_ops 10) (rfix_of (wfix_content b)) = Done (NoErrors, Some 4294967294, r)
  /\ cast Int64 (-2) = -2.
Proof. do 2 eexists. split; [vm_compute; reflexivity|]. split; vm_compute; reflexivity. Qed.

(** An int64 or uint64 below 0 or from 2^35 on is refused by a reader that expects uint32 or an enum (not truncated),
    and its last bytes stay in the buffer. *)
Theorem C67_large_refuted : forall sc sc' z, scalar_range sc z -> too_large sc sc' z ->
  exists bs left, (forall S (W : wops S) rel exact, writer_ok W rel exact -> emits rel (scalar_serialize_z sc z W) (bs ++ left))
    /\ left <> []
    /\ (forall S (R : rops S) rel, reader_ok R rel -> forall s rest, rel s (bs ++ left ++ rest) ->
          exists s', scalar_deserialize_z sc' R s = Done (OverlongVarint, None, s') /\ rel s' (left ++ rest)).
Proof. exact retype_too_large. Qed.
Print Assumptions C67_large_refuted.

Example C67_large_applies : scalar_range Int64 (-1) /\ too_large Int64 Enumeration (-1) /\ interchangeable Int64 Enumeration
  /\ exists b r, scalar_serialize_z Int64 (-1) (wfix_ops 10) (wfix_init 10) = Done (NoErrors, b)
  /\ scalar_deserialize_z Enumeration (rfix_ops 10) (rfix_of (wfix_content b)) = Done (OverlongVarint, None, r) /\ rf_r r = 5.
Proof.
  split; [cbn; lia|]. split; [cbn; lia|]. split; [reflexivity|]. do 2 eexists.
  split; [vm_compute; reflexivity|]. split; [vm_compute; reflexivity|]. reflexivity.
Qed.

(** Of a number that is written with more than one byte a reader that expects a bool takes one byte only; the rest is
    left in the buffer and read as the next field. *)
Theorem C67_bool_refuted : forall sc z, interchangeable sc Boolean -> scalar_range sc z -> not_one_byte sc Boolean z ->
  exists b left, (forall S (W : wops S) rel exact, writer_ok W rel exact -> emits rel (scalar_serialize_z sc z W) (b :: left))
    /\ left <> []
    /\ (forall S (R : rops S) rel, reader_ok R rel -> forall s rest, rel s (b :: left ++ rest) ->
          exists s', scalar_deserialize_z Boolean R s = Done (NoErrors, Some 1, s') /\ rel s' (left ++ rest)).
Proof. exact retype_bool. Qed.
Print Assumptions C67_bool_refuted.

Example C67_bool_applies : interchangeable UInt32 Boolean /\ scalar_range UInt32 300 /\ not_one_byte UInt32 Boolean 300.
Proof. split; [reflexivity|]. split; [cbn; lia|]. split; [reflexivity|right; lia]. Qed.

(** Everything else of C67 holds: the receiver reads the sender's number, cast to its own type, and exactly the bytes
    the sender wrote. Missing: the three cases above. *)
Theorem C67_kept_partial : forall sc sc' z, interchangeable sc sc' -> scalar_range sc z -> promised sc sc' z ->
  ~ loses_sign sc sc' z -> ~ too_large sc sc' z -> ~ not_one_byte sc sc' z ->
  exists bs, (forall S (W : wops S) rel exact, writer_ok W rel exact -> emits rel (scalar_serialize_z sc z W) bs)
    /\ (forall S (R : rops S) rel, reader_ok R rel -> reads rel (scalar_deserialize_z sc' R) bs (cast sc' z)).
Proof. exact retype_kept. Qed.
Print Assumptions C67_kept_partial.

Example C67_kept_applies : let z := -5000000000 in
  interchangeable Int64 Int32 /\ scalar_range Int64 z /\ promised Int64 Int32 z
  /\ ~ loses_sign Int64 Int32 z /\ ~ too_large Int64 Int32 z /\ ~ not_one_byte Int64 Int32 z /\ cast Int32 z = -705032704
  /\ exists b r, scalar_serialize_z Int64 z (wfix_ops 10) (wfix_init 10) = Done (NoErrors, b)
  /\ scalar_deserialize_z Int32 (rfix_ops 10) (rfix_of (wfix_content b)) = Done (NoErrors, Some (-705032704), r) /\ rf_r r = 10.
Proof.
  split; [reflexivity|]. split; [cbn; lia|]. split; [exact I|]. split; [exact (fun H => H)|]. split; [exact (fun H => H)|].
  split; [intros [H _]; discriminate|]. split; [reflexivity|]. do 2 eexists.
  split; [vm_compute; reflexivity|]. split; [vm_compute; reflexivity|]. reflexivity.
Qed.
