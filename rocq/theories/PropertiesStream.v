(** * Property C81: several messages in one buffer, each with its length in front.

    [write_stream]/[read_stream] (Stream.v) are the program a user writes for this with the public API. The
    specification is in SpecStream.v: [framed (t, v)] is the length of the serialized message and the serialized message;
    a [frame] is any legal form of a length and that many arbitrary bytes. *)
From Verif Require Import Base Buffers Wire Schema Fields Message Api Spec SpecStream Stream Contracts BufferProofs ReadProofs Samples DecodeSamples
  StreamProofs.

(** Writing: every write buffer then holds one frame per message, or, if there is not enough room, the beginning of this
    and BUFFER_FULL is reported. *)
Theorem C81_write : forall l, Forall sendable l -> forall S (W : wops S) rel exact, writer_ok W rel exact ->
  forall s c room, rel s c room ->
  exists e s', write_stream l W s = Done (e, s')
    /\ ((e = NoErrors /\ rel s' (c ++ flat_map framed l) (option_map (fun n => n - zlen (flat_map framed l)) room))
        \/ (e = BufferFull /\ exists n pre suf, room = Some n /\ flat_map framed l = pre ++ suf /\ suf <> []
             /\ rel s' (c ++ pre) (Some (n - zlen pre)) /\ n <= zlen (flat_map framed l))).
Proof. exact write_stream_outcome. Qed.
Print Assumptions C81_write.

Example C81_write_applies : Forall sendable [(Outer, outer_v); (Inner, default_value Inner); (Outer, outer_v)]
  /\ wfix_rel 120 (wfix_init 120) [] (Some 120)
  /\ exists b, write_stream [(Outer, outer_v); (Inner, default_value Inner); (Outer, outer_v)] (wfix_ops 120) (wfix_init 120) = Done (NoErrors, b).
Proof.
  split.
  { constructor; [split; [exact Outer_ok|]; split; [exact outer_v_wt|vm_compute; reflexivity]|].
    constructor; [split; [exact Inner_ok|]; split; [vm_compute; repeat split; congruence|vm_compute; reflexivity]|].
    constructor; [split; [exact Outer_ok|]; split; [exact outer_v_wt|vm_compute; reflexivity]|]. constructor. }
  split; [|eexists; vm_compute; reflexivity]. unfold wfix_rel. repeat split; try (vm_compute; congruence); try lia.
  vm_compute. repeat constructor; congruence.
Qed.

(** Reading: whatever the bytes of a message are, the object it is read into stays valid and the messages behind it are read
    as if it had been a different one; a message made of legal records is accepted and merged. After the last
    object the buffer is exactly behind the last frame. *)
Theorem C81_read : forall S (R : rops S) rel, reader_ok R rel ->
  forall fuel frames, Forall frame_ok frames -> Forall (fun f => (length (snd (snd f)) < fuel)%nat) frames ->
  forall s rest, rel s (flat_map frame_bytes frames ++ rest) ->
  exists outs s', read_stream fuel (map fst frames) R s = Done (outs, s') /\ rel s' rest /\ Forall2 frame_read frames outs.
Proof. intros S R rel ok. exact (read_stream_ok ok). Qed.
Print Assumptions C81_read.

(** Three messages; the one in the middle is no message at all. *)
Example C81_read_applies :
  let frames := [((Outer, default_value Outer), ([137; 0], sample_a)); ((Inner, default_value Inner), ([3], [0; 255; 255])); ((Outer, default_value Outer), ([9], sample_a))] in
  Forall frame_ok frames /\ Forall (fun f => (length (snd (snd f)) < 10)%nat) frames
  /\ rfix_rel 25 (rfix_of (flat_map frame_bytes frames)) (flat_map frame_bytes frames)
  /\ mdec outer_fields outer_oneofs (view Outer (default_value Outer)) sample_a sample_mid
  /\ exists v1 v2 s', read_stream 10 (map fst frames) (rfix_ops 25) (rfix_of (flat_map frame_bytes frames))
       = Done ([(NoErrors, v1); (InvalidFieldId, v2); (NoErrors, v1)], s') /\ view Outer v1 = sample_mid.
Proof.
  cbv zeta. split.
  { constructor; [split; [exact Outer_ok|]; split; [exact outer_default_wt|]; split; [apply wf2; lia|vm_compute; reflexivity]|].
    constructor; [split; [exact Inner_ok|]; split; [vm_compute; repeat split; congruence|]; split; [apply wf1; lia|vm_compute; reflexivity]|].
    constructor; [split; [exact Outer_ok|]; split; [exact outer_default_wt|]; split; [apply wf1; lia|vm_compute; reflexivity]|].
    constructor. }
  split; [repeat constructor|]. split.
  { apply rfix_of_rel; [vm_compute; reflexivity|]. vm_compute. repeat constructor; congruence. }
  split; [exact sample_a_ok|]. do 3 eexists. split; vm_compute; reflexivity.
Qed.

(** Both together: every object received shows what the object sent showed (up to the sign of a zero in plain floating
    point fields, as for one message, C20/C21), and the rest of the input is untouched. *)
Theorem C81_round_trip : forall l, Forall receivable l -> forall cap b c n b', wfix_rel cap b c (Some n) ->
  write_stream (map fst l) (wfix_ops cap) b = Done (NoErrors, b') ->
  exists bytes, wfix_content b' = wfix_content b ++ bytes /\
  forall S (R : rops S) rel, reader_ok R rel -> forall s rest, rel s (bytes ++ rest) ->
  forall fuel, (length bytes < fuel)%nat ->
  exists outs s', read_stream fuel (map (fun '(t, v, v0) => (t, v0)) l) R s = Done (outs, s') /\ rel s' rest /\ Forall2 received l outs.
Proof. exact stream_round_trip. Qed.
Print Assumptions C81_round_trip.

Example C81_round_trip_applies : Forall receivable [(Outer, outer_v, default_value Outer); (Outer, outer_v, default_value Outer)]
  /\ exists b outs s', write_stream [(Outer, outer_v); (Outer, outer_v)] (wfix_ops 120) (wfix_init 120) = Done (NoErrors, b)
     /\ read_stream 120 [(Outer, default_value Outer); (Outer, default_value Outer)] (rfix_ops (zlen (wfix_content b))) (rfix_of (wfix_content b)) = Done (outs, s')
     /\ map (fun o => view Outer (snd o)) outs = [view Outer outer_v; view Outer outer_v].
Proof.
  split.
  { constructor; [|constructor; [|constructor]]; (split; [split; [exact Outer_ok|]; split; [exact outer_v_wt|vm_compute; reflexivity]|left; reflexivity]). }
  do 3 eexists. split; [vm_compute; reflexivity|]. split; vm_compute; reflexivity.
Qed.

(** A stream that was cut is not always noticed: when the input ends inside a message, at the end of one of its records
    (or right behind its length), deserialize() reports NO_ERRORS and the message is taken as complete, because
    ReadBufferSection makes itself as small as the buffer. For all messages and all places to cut. The reader has to compare the length
    with get_size() itself. *)
Theorem C81_cut_refuted : forall S (R : rops S) rel, reader_ok R rel -> reader_bounded R rel ->
  forall fs os v l n a new, let t := EMsg fs os in desc_ok t -> wt t v -> clean t v ->
  varint32 l n -> zlen a < n -> mdec fs os (view t v) a new ->
  forall s, rel s (l ++ a) -> forall fuel, (length a < fuel)%nat ->
  exists v' s', read_framed fuel t S R v s = Done (NoErrors, v', s') /\ rel s' [] /\ view t v' = new.
Proof. intros S R rel. exact (cut_accepted R rel). Qed.
Print Assumptions C81_cut_refuted.

Example C81_cut_applies : desc_ok Outer /\ wt Outer (default_value Outer) /\ clean Outer (default_value Outer)
  /\ varint32 [23] 23 /\ zlen sample_a < 23 /\ mdec outer_fields outer_oneofs (view Outer (default_value Outer)) sample_a sample_mid
  /\ rfix_rel 10 (rfix_of ([23] ++ sample_a)) ([23] ++ sample_a)
  /\ exists v' s', read_framed 10 Outer _ (rfix_ops 10) (default_value Outer) (rfix_of ([23] ++ sample_a)) = Done (NoErrors, v', s').
Proof.
  split; [exact Outer_ok|]. split; [exact outer_default_wt|]. split; [exact outer_default_clean|].
  split; [split; [apply wf1; lia|vm_compute; reflexivity]|]. split; [vm_compute; reflexivity|]. split; [exact sample_a_ok|]. split.
  { apply rfix_of_rel; [vm_compute; reflexivity|]. vm_compute. repeat constructor; congruence. }
  do 2 eexists. vm_compute; reflexivity.
Qed.
