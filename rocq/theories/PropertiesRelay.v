(** * Property C82: a program with another version of the .proto file between sender and receiver.

    [wrote_message t v bytes] (SpecRelay.v): serialize() of the object [v] succeeds and writes [bytes].
    [read_message t bytes v]: deserialize() of [bytes] into a new object succeeds and gives [v].
    [version t t'] and [carry t t' w] (SpecVersions.v) are those of property C65: what a receiver with type [t'] should
    see of the value [w] of type [t]. [t] is the sender's type, [t1] that of the program between, [t2] the receiver's. *)
From Verif Require Import Base Buffers Wire Schema Fields Message Api Spec Contracts BufferProofs
  Samples SpecVersions SpecRelay RelayProofs RelayOneof RelaySamples.

(** C82, fields that the program between does not know: the claim that they pass through is false for all types, objects
    and buffers. Whatever the sender had in it, the receiver finds the default value, and no such member of a oneof is
    ever set. *)
Theorem C82_unknown_lost_refuted : forall fs os fs1 os1 fs2 os2 v bytes v1 bytes1 v2,
  let t := EMsg fs os in let t1 := EMsg fs1 os1 in let t2 := EMsg fs2 os2 in
  desc_ok t -> desc_ok t1 -> desc_ok t2 -> version t t1 -> version t1 t2 -> wt t v ->
  zlen (enc t (view t v)) < 2 ^ 32 -> zlen (enc t1 (view t1 v1)) < 2 ^ 32 ->
  wrote_message t v bytes -> read_message t1 bytes v1 -> wrote_message t1 v1 bytes1 -> read_message t2 bytes1 v2 ->
  (forall j num k u, nth_error fs2 j = Some (num, k, u) -> ~ In num (field_numbers fs1 os1) ->
     nth_error (field_values (view t2 v2)) j = Some (sdefault_field k (sdefault u)))
  /\ (forall j which x, nth_error (oneof_values (view t2 v2)) j = Some (which, x) -> which <> 0 -> In which (field_numbers fs1 os1)).
Proof. exact lost. Qed.
Print Assumptions C82_unknown_lost_refuted.

(** C82, fields that the program between has with the same type: the receiver sees in them exactly what it would have
    seen of the message if the sender had sent it directly. The receiver may have the field with another type. *)
Theorem C82_known_kept_partial : forall fs os fs1 os1 fs2 os2 v bytes v1 bytes1 v2,
  let t := EMsg fs os in let t1 := EMsg fs1 os1 in let t2 := EMsg fs2 os2 in
  desc_ok t -> desc_ok t1 -> desc_ok t2 -> version t t1 -> version t1 t2 -> wt t v ->
  zlen (enc t (view t v)) < 2 ^ 32 -> zlen (enc t1 (view t1 v1)) < 2 ^ 32 ->
  wrote_message t v bytes -> read_message t1 bytes v1 -> wrote_message t1 v1 bytes1 -> read_message t2 bytes1 v2 ->
  forall i i1 j num k u k2 u2, nth_error fs i = Some (num, k, u) -> nth_error fs1 i1 = Some (num, k, u) -> nth_error fs2 j = Some (num, k2, u2) ->
  nth_error (field_values (view t2 v2)) j = nth_error (field_values (carry t t2 (norm t (view t v)))) j.
Proof. exact kept. Qed.
Print Assumptions C82_known_kept_partial.

(** C82, a oneof [ms] that sender and program between have alike: the receiver sees exactly what it would have seen of it if
    the message had been sent directly, both in its own oneof, which may have other members, and in fields that are
    not in a oneof for the receiver. *)
Theorem C82_oneof_kept_partial : forall fs os fs1 os1 fs2 os2 v bytes v1 bytes1 v2,
  let t := EMsg fs os in let t1 := EMsg fs1 os1 in let t2 := EMsg fs2 os2 in
  desc_ok t -> desc_ok t1 -> desc_ok t2 -> version t t1 -> version t1 t2 -> wt t v ->
  zlen (enc t (view t v)) < 2 ^ 32 -> zlen (enc t1 (view t1 v1)) < 2 ^ 32 ->
  wrote_message t v bytes -> read_message t1 bytes v1 -> wrote_message t1 v1 bytes1 -> read_message t2 bytes1 v2 ->
  forall ms, In ms os -> In ms os1 ->
  let direct := carry t t2 (norm t (view t v)) in
  (forall j num k2 u2, nth_error fs2 j = Some (num, k2, u2) -> In num (map fst ms) ->
     nth_error (field_values (view t2 v2)) j = nth_error (field_values direct) j)
  /\ (forall j ms2, nth_error os2 j = Some ms2 ->
       (forall num, In num (map fst ms2) -> In num (field_numbers fs os) \/ In num (field_numbers fs1 os1) -> In num (map fst ms)) ->
     nth_error (oneof_values (view t2 v2)) j = nth_error (oneof_values direct) j).
Proof. exact oneof_kept. Qed.
Print Assumptions C82_oneof_kept_partial.

(** C82, the whole message: what the receiver sees is determined by the three types and the object sent. *)
Theorem C82_both_hops_partial : forall fs os fs1 os1 fs2 os2 v bytes v1 bytes1 v2,
  let t := EMsg fs os in let t1 := EMsg fs1 os1 in let t2 := EMsg fs2 os2 in
  desc_ok t -> desc_ok t1 -> desc_ok t2 -> version t t1 -> version t1 t2 -> wt t v ->
  zlen (enc t (view t v)) < 2 ^ 32 -> zlen (enc t1 (view t1 v1)) < 2 ^ 32 ->
  wrote_message t v bytes -> read_message t1 bytes v1 -> wrote_message t1 v1 bytes1 -> read_message t2 bytes1 v2 ->
  view t2 v2 = carry t1 t2 (norm t1 (carry t t1 (norm t (view t v)))).
Proof. exact chain. Qed.
Print Assumptions C82_both_hops_partial.

(** Fields 1, 4, 5 and 8 get lost between two programs that both have them, fields 2, 3 and 6 pass through. *)
Example C82_applies : desc_ok Outer /\ desc_ok Older /\ version Outer Older /\ version Older Outer /\ wt Outer outer_v
  /\ zlen (enc Outer (view Outer outer_v)) < 2 ^ 32 /\ zlen (enc Older (view Older at_relay)) < 2 ^ 32
  /\ wrote_message Outer outer_v (bytes_of Outer outer_v) /\ read_message Older (bytes_of Outer outer_v) at_relay
  /\ wrote_message Older at_relay (bytes_of Older at_relay) /\ read_message Outer (bytes_of Older at_relay) at_receiver
  /\ ~ In 1 (field_numbers older_fields older_oneofs) /\ nth_error (field_values (view Outer outer_v)) 0 = Some (SvZ 300)
  /\ view Outer at_receiver = relayed_s.
Proof.
  split; [exact Outer_ok|]. split; [exact Older_ok|]. split; [exact Outer_Older|]. split; [exact Older_Outer|]. split; [exact outer_v_wt|].
  split; [vm_compute; reflexivity|]. split; [vm_compute; reflexivity|]. split; [exact outer_wrote|]. split; [exact relay_read|].
  split; [exact relay_wrote|]. split; [exact receiver_read|]. split; [cbn; intuition lia|]. split; vm_compute; reflexivity.
Qed.

(** The oneof and field 2 pass through a message type that has only these in common with the others. *)
Example C82_oneof_applies : desc_ok Outer /\ desc_ok Choice /\ version Outer Choice /\ version Choice Outer /\ wt Outer outer_v
  /\ zlen (enc Outer (view Outer outer_v)) < 2 ^ 32 /\ zlen (enc Choice (view Choice at_choice)) < 2 ^ 32
  /\ wrote_message Outer outer_v (bytes_of Outer outer_v) /\ read_message Choice (bytes_of Outer outer_v) at_choice
  /\ wrote_message Choice at_choice (bytes_of Choice at_choice) /\ read_message Outer (bytes_of Choice at_choice) after_choice
  /\ (forall ms, In ms outer_oneofs -> forall num, In num (map fst ms) -> In num (field_numbers outer_fields outer_oneofs) \/ In num (field_numbers choice_fields outer_oneofs) -> In num (map fst ms))
  /\ oneof_values (view Outer after_choice) = oneof_values (view Outer outer_v) /\ oneof_values (view Outer outer_v) <> [(0, SvNone)].
Proof.
  split; [exact Outer_ok|]. split; [exact Choice_ok|]. split; [exact Outer_Choice|]. split; [exact Choice_Outer|]. split; [exact outer_v_wt|].
  split; [vm_compute; reflexivity|]. split; [vm_compute; reflexivity|]. split; [exact outer_wrote|]. split; [exact choice_read|].
  split; [exact choice_wrote|]. split; [exact after_choice_read|]. split; [auto|]. split; [vm_compute; reflexivity|]. vm_compute. discriminate.
Qed.
