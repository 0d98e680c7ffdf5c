(** * Properties: the room that a received object needs to be sent again. *)
From Verif Require Import Base Buffers Schema Fields Message Api Spec SpecRead Contracts BufferProofs Samples DecodeSamples MalformedSamples
  DecodeProps ReadTotal RoomProofs RoomSamples.
From Coq Require Import Lia.

Local Notation d0 := (default_value Outer).
Local Notation di := (default_value Inner).

(** C95: an object that was received needs no more room than the bytes received. This fails with the library's fixed
    read buffer: an unknown record can take it back to bytes that it has passed already (C28), and they are stored a
    second time. *)
Theorem C95_received_room_refuted : ~ (forall fs os bs, let t := EMsg fs os in
  desc_ok t -> Forall is_byte bs -> zlen bs < 2 ^ 31 -> forall fuel, (length bs < fuel)%nat ->
  forall v' s', deserialize fuel t rfix (rfix_ops (zlen bs)) (default_value t) (rfix_of bs) = Done (NoErrors, v', s') ->
  forall n', serialized_size (serialize t v') = Done n' -> n' <= zlen bs).
Proof. exact room_refuted. Qed.
Print Assumptions C95_received_room_refuted.

(** 10 bytes become 12: the value of the first field is [18; 6], the second has the 6 bytes of the unknown record. *)
Example C95_refuted_applies : exists v' s',
  deserialize 20 two_values rfix (rfix_ops 10) (default_value two_values) (rfix_of read_twice) = Done (NoErrors, v', s')
  /\ view two_values v' = SvM [SvB [18; 6]; SvB [26; 248; 255; 255; 255; 15]] []
  /\ serialized_size (serialize two_values v') = Done 12.
Proof.
  exists (VM [] [VB 2 [18; 6; 0; 0; 0; 0; 0; 0]; VB 6 [26; 248; 255; 255; 255; 15; 0; 0]] []), {| rf_data := read_twice; rf_w := 10; rf_r := 10 |}.
  repeat split.
Qed.

(** What holds for all bytes with a buffer that knows where its bytes end, and with any buffer unless the input ends in
    the middle of an unknown record: the object has grown by no more than the bytes received, and can be written to any
    fixed buffer with one byte more (C17). *)
Theorem C95_received_room_partial : forall fs os v bs, let t := EMsg fs os in
  desc_ok t -> wt t v -> clean t v -> Forall is_byte bs -> zlen (enc t (view t v)) + zlen bs < 2 ^ 32 ->
  forall S (R : rops S) rel, reader_ok R rel -> reader_bounded R rel \/ ~ mover fs os (view t v) bs ->
  forall s, rel s bs -> forall fuel, (length bs < fuel)%nat ->
  forall v' s', deserialize fuel t S R v s = Done (NoErrors, v', s') ->
  exists n n', serialized_size (serialize t v) = Done n /\ serialized_size (serialize t v') = Done n' /\ n' <= n + zlen bs
  /\ forall cap b c room, wfix_rel cap b c (Some room) -> n + zlen bs < room ->
     exists b', serialize t v' wfix (wfix_ops cap) b = Done (NoErrors, b').
Proof. exact received_room. Qed.
Print Assumptions C95_received_room_partial.

(** The input of the counterexample from a buffer that knows its end: the unknown record is skipped to the end. *)
Example C95_partial_applies : exists v' s', deserialize 20 two_values _ lops (default_value two_values) read_twice = Done (NoErrors, v', s')
  /\ view two_values v' = SvM [SvB [18; 6]; SvB []] []
  /\ forall cap b c room, wfix_rel cap b c (Some room) -> 10 < room ->
     exists b', serialize two_values v' wfix (wfix_ops cap) b = Done (NoErrors, b').
Proof.
  exists (VM [] [VB 2 [18; 6; 0; 0; 0; 0; 0; 0]; VB 0 [0; 0; 0; 0; 0; 0; 0; 0]] []), []. split; [reflexivity|]. split; [reflexivity|].
  destruct (C95_received_room_partial _ _ (default_value two_values) read_twice two_values_ok two_values_wt two_values_clean read_twice_bytes
    eq_refl _ lops lrel lops_ok (or_introl lops_bounded) read_twice (conj eq_refl read_twice_bytes) 20%nat ltac:(cbn; lia) _ [] eq_refl)
    as (n & n' & E & _ & _ & H). vm_compute in E. injection E as <-. exact H.
Qed.

(** An object fresh from its constructor or from clear() needs no more room than the bytes received. *)
Theorem C95_received_room_fresh_partial : forall fs os v bs, let t := EMsg fs os in
  desc_ok t -> fresh t v -> Forall is_byte bs -> zlen bs < 2 ^ 32 ->
  forall S (R : rops S) rel, reader_ok R rel -> reader_bounded R rel \/ ~ mover fs os (sdefault t) bs ->
  forall s, rel s bs -> forall fuel, (length bs < fuel)%nat ->
  forall v' s', deserialize fuel t S R v s = Done (NoErrors, v', s') ->
  exists n', serialized_size (serialize t v') = Done n' /\ n' <= zlen bs
  /\ forall cap b c room, wfix_rel cap b c (Some room) -> zlen bs < room ->
     exists b', serialize t v' wfix (wfix_ops cap) b = Done (NoErrors, b').
Proof. exact received_room_fresh. Qed.
Print Assumptions C95_received_room_fresh_partial.

(** 22 bytes with a tag longer than necessary and two members of a oneof: 19 bytes are enough. *)
Example C95_fresh_applies : exists v' s', deserialize 100 Outer _ lops d0 (sample_a ++ sample_b) = Done (NoErrors, v', s')
  /\ serialized_size (serialize Outer v') = Done 19
  /\ exists n', serialized_size (serialize Outer v') = Done n' /\ n' <= 22.
Proof.
  destruct (deserialize 100 Outer _ lops d0 (sample_a ++ sample_b)) as [[[e v'] s']| |] eqn:E; try (vm_compute in E; discriminate E).
  assert (e = NoErrors) by (vm_compute in E; congruence). subst e. exists v', s'. split; [reflexivity|].
  destruct (C95_received_room_fresh_partial od oo d0 (sample_a ++ sample_b) Outer_ok (or_introl eq_refl) sample_ab_bytes eq_refl
    _ lops lrel lops_ok (or_introl lops_bounded) _ (conj eq_refl sample_ab_bytes) 100%nat ltac:(cbn; lia) v' s' E) as (n' & H & Hn & _).
  split; [|exists n'; auto]. vm_compute in E. injection E as <- _. reflexivity.
Qed.

(** Every encoding (also with unknown records) from every buffer. *)
Theorem C95_received_room_encoding_partial : forall fs os v bs new, let t := EMsg fs os in
  desc_ok t -> wt t v -> clean t v -> mdec fs os (view t v) bs new -> zlen (enc t (view t v)) + zlen bs < 2 ^ 32 ->
  forall S (R : rops S) rel, reader_ok R rel -> forall s, rel s bs -> forall fuel, (length bs < fuel)%nat ->
  exists v' s', deserialize fuel t S R v s = Done (NoErrors, v', s') /\ view t v' = new /\
  exists n n', serialized_size (serialize t v) = Done n /\ serialized_size (serialize t v') = Done n' /\ n' <= n + zlen bs
  /\ forall cap b c room, wfix_rel cap b c (Some room) -> n + zlen bs < room ->
     exists b', serialize t v' wfix (wfix_ops cap) b = Done (NoErrors, b').
Proof. exact received_room_mdec. Qed.
Print Assumptions C95_received_room_encoding_partial.

Example C95_encoding_applies : exists v' s', deserialize 10 Inner _ (rfix_ops 7) di (rfix_of hello) = Done (NoErrors, v', s')
  /\ view Inner v' = inner_s 0 [104; 101; 108; 108; 111]
  /\ exists b', serialize Inner v' wfix (wfix_ops 8) (wfix_init 8) = Done (NoErrors, b').
Proof.
  assert (Hb : Forall is_byte hello) by (repeat constructor; unfold is_byte; lia).
  destruct (C95_received_room_encoding_partial inner_fields [] di hello _ Inner_ok inner_default_wt inner_default_clean hello_ok eq_refl
    _ _ _ (rfix_ok 7) (rfix_of hello) (rfix_of_rel hello eq_refl Hb) 10%nat ltac:(cbn; lia)) as (v' & s' & E & Hv & n & n' & En & _ & _ & H).
  exists v', s'. split; [exact E|]. split; [exact Hv|]. vm_compute in En. injection En as <-.
  exact (H 8 _ [] 8 (wfix_init_rel 8 ltac:(lia)) ltac:(reflexivity)).
Qed.
