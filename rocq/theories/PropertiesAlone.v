(** * C77: a field object written and read on its own.
    The classes of the fields have public functions serialize(), serialized_size(), serialize_with_id() and deserialize()
    that can be called on what mutable_x() returns. Specification: Spec.v, Contracts.v. *)
From Verif Require Import Base Buffers Wire Schema Fields Message Spec SpecRead Contracts Samples BufferProofs AloneProofs.
From Coq Require Import Lia.

(** Numbers, booleans and enums: serialize() writes serialized_size() bytes, which deserialize() reads back. (For messages see
    C16 and C20.) *)
Theorem C77_scalar_partial : forall sc z, scalar_range sc z ->
  exists bs, serialized_size (serialize (EScalar sc) (VS z)) = Done (zlen bs)
  /\ (forall S (W : wops S) rel exact, writer_ok W rel exact -> emits rel (serialize (EScalar sc) (VS z) S W) bs)
  /\ forall S (R : rops S) rel, reader_ok R rel -> forall v0 s rest fuel, rel s (bs ++ rest) ->
     exists s', deserialize fuel (EScalar sc) S R v0 s = Done (NoErrors, VS z, s') /\ rel s' rest.
Proof. exact scalar_alone. Qed.
Print Assumptions C77_scalar_partial.

Example C77_scalar_applies : scalar_range SInt32 (-70) /\ serialized_size (serialize (EScalar SInt32) (VS (-70))) = Done 2.
Proof. split; [cbn; lia|vm_compute; reflexivity]. Qed.

(** serialize_with_id(num, buffer, true) of a field writes what a message with this one optional field writes, and
    serialize_with_id(num, buffer, false) of a list what a message with this one repeated field writes: whatever the buffer. *)
Theorem C77_record : forall t v num S (W : wops S) s,
  elem_serialize_with_id t (serialize t) v num true S W s = serialize (EMsg [(num, KOpt, t)] []) (VM [1] [v] []) S W s
  /\ forall max, rep_serialize_with_id t (serialize t) v num false S W s = serialize (EMsg [(num, KRep max, t)] []) (VM [] [v] []) S W s.
Proof. exact (fun t v num S W s => conj (record_alone t v num S W s) (fun max => list_alone t max v num S W s)). Qed.
Print Assumptions C77_record.

Example C77_record_applies :
  exists b, elem_serialize_with_id Inner (serialize Inner) (inner_v 5 (-3)) 9 true wfix (wfix_ops 40) (wfix_init 40) = Done (NoErrors, b)
  /\ firstn 2 (wfix_content b) = [74; 8].
Proof. eexists. split; [vm_compute; reflexivity|vm_compute; reflexivity]. Qed.

(** False for strings and bytes: serialize() writes the content without its length and deserialize() expects the length. No
    content is ever read back. *)
Theorem C77_string_refuted : forall st max v, let t := EBytes st max in desc_ok t -> wt t v ->
  (forall S (W : wops S) rel exact, writer_ok W rel exact -> forall s c n, rel s c (Some n) -> zlen (enc t (view t v)) < n ->
     exists s', serialize t v S W s = Done (NoErrors, s') /\ rel s' (c ++ enc t (view t v)) (Some (n - zlen (enc t (view t v)))))
  /\ forall S (R : rops S) rel, reader_ok R rel -> forall s, rel s (enc t (view t v)) -> forall v0 fuel,
     exists e v' s', deserialize fuel t S R v0 s = Done (e, v', s') /\ ~ (e = NoErrors /\ view t v' = view t v).
Proof. exact string_alone. Qed.
Print Assumptions C77_string_refuted.

(** The content [2; 97; 98] is read back as "ab", without an error. *)
Example C77_string_applies : let t := EBytes false 4 in let v := VB 3 [2; 97; 98; 0] in desc_ok t /\ wt t v
  /\ (exists b, serialize t v wfix (wfix_ops 4) (wfix_init 4) = Done (NoErrors, b) /\ wfix_content b = [2; 97; 98])
  /\ exists r, deserialize 9 t rfix (rfix_ops 3) (VB 0 [0; 0; 0; 0]) (rfix_of [2; 97; 98]) = Done (NoErrors, VB 2 [97; 98; 0; 0], r).
Proof.
  cbn zeta. split; [cbn; unfold capacity_ok; lia|]. split; [cbn; unfold is_byte; repeat split; lia|].
  split; [eexists; split; [vm_compute; reflexivity|vm_compute; reflexivity]|eexists; vm_compute; reflexivity].
Qed.

(** False for lists: serialize() reports BUFFER_FULL and writes nothing, whatever the list and however large the buffer, and
    serialized_size() is 0. *)
Theorem C77_list_refuted : forall v, serialized_size (rep_serialize v) = Done 0
  /\ forall S (W : wops S) s, rep_serialize v S W s = Done (BufferFull, s).
Proof. exact rep_alone. Qed.
Print Assumptions C77_list_refuted.

Example C77_list_applies : let v := VR 2 [VS 5; VS 6; VS 0] in
  rep_serialize v wfix (wfix_ops 100) (wfix_init 100) = Done (BufferFull, wfix_init 100)
  /\ exists b, rep_serialize_with_id (EScalar UInt32) (serialize (EScalar UInt32)) v 3 false wfix (wfix_ops 100) (wfix_init 100) = Done (NoErrors, b)
     /\ wfix_content b = [26; 2; 5; 6].
Proof. split; [reflexivity|]. eexists. split; [vm_compute; reflexivity|vm_compute; reflexivity]. Qed.
