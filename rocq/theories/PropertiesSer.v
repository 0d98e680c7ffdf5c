(** * Properties C16-C19 and C45: serialization of messages.

    Every theorem ranges over all message types [EMsg fs os] with legal field numbers and capacities
    ([desc_ok]), over all valid objects of the class ([wt], Spec.v; every object the API can produce
    is one, see PropertiesApi.v) whose encoding is shorter than 4 GiB. [view] is what the getters
    show, [enc] the proto3 encoding of it, both in Spec.v. *)
From Verif Require Import Base Buffers Wire Schema Fields Message Spec Contracts Samples SpecWrite SerProps AlikeProps.

(** C16: serialized_size() is the number of bytes a successful serialize() writes, to any buffer. *)
Theorem C16_serialized_size : forall fs os v, let t := EMsg fs os in
  wt t v -> desc_ok t -> zlen (enc t (view t v)) < 2 ^ 32 ->
  exists n, serialized_size (serialize t v) = Done n
  /\ forall S (W : wops S) rel exact, writer_ok W rel exact -> forall s c room s', rel s c room ->
     serialize t v S W s = Done (NoErrors, s') ->
     exists bs, rel s' (c ++ bs) (option_map (fun a => a - n) room) /\ zlen bs = n.
Proof. exact size_is_written. Qed.
Print Assumptions C16_serialized_size.

Example C16_applies : wt Outer outer_v /\ desc_ok Outer
  /\ serialized_size (serialize Outer outer_v) = Done 53
  /\ exists b, serialize Outer outer_v _ (wfix_ops 60) (wfix_init 60) = Done (NoErrors, b)
               /\ zlen (wfix_content b) = 53.
Proof.
  split; [exact outer_v_wt|]. split; [exact Outer_ok|]. split; [vm_compute; reflexivity|].
  eexists. split; vm_compute; reflexivity.
Qed.

(** C17: the full statement (a buffer with serialized_size() bytes is enough) is false. *)
Theorem C17_exact_space_refuted : ~ (forall fs os v cap, let t := EMsg fs os in
  wt t v -> desc_ok t -> zlen (enc t (view t v)) < 2 ^ 32 -> 0 <= cap <= 2 ^ 31 ->
  forall size, serialized_size (serialize t v) = Done size -> size <= cap ->
  exists b', serialize t v wfix (wfix_ops cap) (wfix_init cap) = Done (NoErrors, b')).
Proof. exact exact_space_refuted. Qed.
Print Assumptions C17_exact_space_refuted.

(** What holds, with [n] bytes left in the buffer: one spare byte is always enough, no spare byte is
    needed without string and bytes fields, and too little space is always reported. When exactly
    serialized_size() bytes are enough: C17_exact_space_iff (PropertiesExact.v). *)
Theorem C17_exact_space_partial : forall fs os v cap b c n, let t := EMsg fs os in
  wt t v -> desc_ok t -> wfix_rel cap b c (Some n) ->
  forall size, serialized_size (serialize t v) = Done size -> zlen (enc t (view t v)) < 2 ^ 32 ->
  exists e b', serialize t v wfix (wfix_ops cap) b = Done (e, b')
  /\ (size < n -> e = NoErrors) /\ (size = n -> no_bytes t -> e = NoErrors)
  /\ (n < size -> e = BufferFull).
Proof. exact exact_space_partial. Qed.
Print Assumptions C17_exact_space_partial.

Example C17_applies :
  (exists b, serialize Outer outer_v _ (wfix_ops 54) (wfix_init 54) = Done (NoErrors, b))
  /\ (exists b, serialize Outer outer_v _ (wfix_ops 53) (wfix_init 53) = Done (BufferFull, b))
  /\ (exists b, serialize Outer outer_v _ (wfix_ops 52) (wfix_init 52) = Done (BufferFull, b)).
Proof. repeat split; eexists; vm_compute; reflexivity. Qed.

(** C18: serialize() writes the whole encoding and reports success, or reports BUFFER_FULL and has
    written a proper prefix of it; what was in the buffer before stays. *)
Theorem C18_prefix_or_all : forall fs os v, let t := EMsg fs os in
  wt t v -> desc_ok t -> zlen (enc t (view t v)) < 2 ^ 32 ->
  forall S (W : wops S) rel exact, writer_ok W rel exact -> forall s c room, rel s c room ->
  exists e s', serialize t v S W s = Done (e, s') /\
    ((e = NoErrors /\ rel s' (c ++ enc t (view t v)) (option_map (fun n => n - zlen (enc t (view t v))) room))
     \/ (e = BufferFull /\ exists pre suf n, enc t (view t v) = pre ++ suf /\ suf <> []
         /\ room = Some n /\ rel s' (c ++ pre) (Some (n - zlen pre)))).
Proof. exact prefix_or_all. Qed.
Print Assumptions C18_prefix_or_all.

Example C18_applies : exists b, serialize Outer outer_v _ (wfix_ops 10) (wfix_init 10) = Done (BufferFull, b)
  /\ wfix_content b = [8; 172; 2; 18; 3; 97; 98; 99; 26; 4] /\ writer_ok (wfix_ops 10) (wfix_rel 10) False.
Proof. eexists. split; [vm_compute; reflexivity|]. split; [reflexivity|exact (BufferProofs.wfix_ok 10)]. Qed.

(** C19: the bytes are the proto3 encoding ([enc], Spec.v) of the value the getters show. *)
Theorem C19_wire_format : forall fs os v, let t := EMsg fs os in
  wt t v -> desc_ok t -> zlen (enc t (view t v)) < 2 ^ 32 ->
  forall cap b c n, wfix_rel cap b c (Some n) -> forall b',
  serialize t v wfix (wfix_ops cap) b = Done (NoErrors, b') ->
  wfix_content b' = wfix_content b ++ enc t (view t v).
Proof. exact serialize_is_enc. Qed.
Print Assumptions C19_wire_format.

Example C19_applies : exists b, serialize Outer outer_v _ (wfix_ops 60) (wfix_init 60) = Done (NoErrors, b)
  /\ wfix_content b = [8; 172; 2;  18; 3; 97; 98; 99;  26; 4; 1; 0; 200; 1;
                       34; 8; 8; 5; 16; 5; 26; 2; 104; 105;  34; 0;  45; 0; 0; 0; 128;
                       50; 12; 8; 255; 255; 255; 255; 15; 16; 14; 26; 2; 104; 105;  66; 6; 16; 0; 26; 2; 104; 105].
Proof. eexists. split; vm_compute; reflexivity. Qed.

(** C45: with a write buffer that refuses a byte and later accepts one again, serialize() can report
    success although a byte was refused ([track] only records refusals). *)
Theorem C45_refused_byte_refuted : exists t v s', desc_ok t /\ wt t v
  /\ serialize t v _ (track flaky_ops) (0, false) = Done (NoErrors, (s', true)).
Proof. exact flaky_refuted. Qed.
Print Assumptions C45_refused_byte_refuted.

(** The rule behind it, for every number, every buffer and every place: when a byte of the varint that is not the
    last is refused, the rest of the number is dropped and one more byte is offered, the low eight bits of what is
    left of the number. The answer to that byte is the answer of the whole write. *)
Theorem C45_varint_refuted : forall S (W : wops S) x pre b c post s s1 s2 ok s3, 0 <= x < 2 ^ 64 ->
  varint x = pre ++ b :: c :: post -> takes W s pre s1 -> w_push W s1 b = Done (false, s2) ->
  w_push W s2 (x / 128 ^ (zlen pre + 1) mod 256) = Done (ok, s3) ->
  SerializeVarint W x s = Done (if ok then NoErrors else BufferFull, s3).
Proof. exact varint_refused. Qed.
Print Assumptions C45_varint_refuted.

Example C45_varint_applies : varint 100000 = [160] ++ 141 :: 6 :: [] /\ takes flaky_ops 0 [160] 1
  /\ w_push flaky_ops 1 141 = Done (false, 2) /\ w_push flaky_ops 2 (100000 / 128 ^ (zlen [160] + 1) mod 256) = Done (true, 3)
  /\ SerializeVarint flaky_ops 100000 0 = Done (NoErrors, 3).
Proof.
  split; [reflexivity|]. split; [|repeat split; reflexivity]. eapply takes_cons; [reflexivity|]. apply takes_nil.
Qed.

(** Recording refusals changes nothing: [track W] is [W] with a flag beside it. *)
Theorem C45_observes : forall S (W : wops S) t v s f,
  match serialize t v _ (track W) (s, f) with
  | Done (e, (s', _)) => serialize t v S W s = Done (e, s')
  | UB => serialize t v S W s = UB
  | Fuel => serialize t v S W s = Fuel
  end.
Proof. exact track_observes. Qed.
Print Assumptions C45_observes.

(** What holds: for every buffer that, having refused a byte, refuses the next one too, success
    means that nothing was refused; for all types and all object states. Missing: other buffers. *)
Theorem C45_refused_byte_partial : forall S (W : wops S) t v s s' refused, sticky W ->
  serialize t v _ (track W) (s, false) = Done (NoErrors, (s', refused)) -> refused = false.
Proof. exact honest_serialize. Qed.
Print Assumptions C45_refused_byte_partial.

Example C45_applies : sticky (wfix_ops 60)
  /\ exists b, serialize Outer outer_v _ (track (wfix_ops 60)) (wfix_init 60, false) = Done (NoErrors, (b, false)).
Proof. split; [exact (wfix_sticky 60)|]. eexists. vm_compute. reflexivity. Qed.
