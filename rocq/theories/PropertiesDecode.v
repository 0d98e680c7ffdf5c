(** * Properties C20-C24, C40 and C47: decoding of well-formed input.

    [mdec fs os old bs new] (Spec.v) says that [bs] is a sequence of complete records for the message
    type and that [new] is the protobuf merge of these records into [old]. [reader_ok R rel] is the
    contract of a read buffer (Contracts.v), [rel s bs] says that [bs] is what is left to read in
    state [s]. [fuel] only has to exceed the number of bytes. [view] is what the getters show. *)
From Verif Require Import Base Buffers Wire Schema Fields Message Api Spec Contracts BufferProofs
  Samples DecodeSamples DecodeProps.

(** C20: whatever serialize() wrote, deserialize() into a new or a cleared object restores: every
    getter shows the old value, up to the sign of a zero in plain float and double fields ([norm]);
    exactly the old value when there is no such -0.0. *)
Theorem C20_round_trip : forall fs os v v0, let t := EMsg fs os in
  desc_ok t -> wt t v -> zlen (enc t (view t v)) < 2 ^ 32 ->
  v0 = default_value t \/ (exists w, wt t w /\ clear t w = Done v0) ->
  forall cap b c n b', wfix_rel cap b c (Some n) ->
  serialize t v _ (wfix_ops cap) b = Done (NoErrors, b') ->
  exists bytes, wfix_content b' = wfix_content b ++ bytes /\
  forall S (R : rops S) rel, reader_ok R rel -> forall s, rel s bytes ->
  forall fuel, (length bytes < fuel)%nat ->
  exists v' s', deserialize fuel t S R v0 s = Done (NoErrors, v', s')
    /\ view t v' = norm t (view t v) /\ (no_neg_zero t (view t v) -> view t v' = view t v).
Proof. exact round_trip. Qed.
Print Assumptions C20_round_trip.

Example C20_applies : desc_ok Outer /\ wt Outer outer_v /\ no_neg_zero Outer (view Outer outer_v)
  /\ (exists v0, clear Outer outer_v = Done v0)
  /\ exists b v' s', serialize Outer outer_v _ (wfix_ops 60) (wfix_init 60) = Done (NoErrors, b)
     /\ rfix_rel 53 (rfix_of (wfix_content b)) (wfix_content b)
     /\ deserialize 54 Outer _ (rfix_ops 53) (default_value Outer) (rfix_of (wfix_content b)) = Done (NoErrors, v', s')
     /\ view Outer v' = view Outer outer_v.
Proof.
  split; [exact Outer_ok|]. split; [exact outer_v_wt|].
  split; [cbn; repeat split; try (vm_compute; congruence); lia|].
  split; [eexists; vm_compute; reflexivity|].
  do 3 eexists. split; [vm_compute; reflexivity|]. split.
  { apply rfix_of_rel; [vm_compute; reflexivity|]. vm_compute. repeat constructor; congruence. }
  split; vm_compute; reflexivity.
Qed.

(** C21: false in general. A plain float holding -0.0 comes back as +0.0. *)
Theorem C21_negative_zero_refuted : exists fs os v b v' s',
  let t := EMsg fs os in
  desc_ok t /\ wt t v /\ view t v = SvM [SvZ (2 ^ 31)] []
  /\ serialize t v _ (wfix_ops 10) (wfix_init 10) = Done (NoErrors, b)
  /\ deserialize 11 t _ (rfix_ops 10) (default_value t) (rfix_of (wfix_content b)) = Done (NoErrors, v', s')
  /\ view t v' = SvM [SvZ 0] [].
Proof. exact neg_zero_refuted. Qed.
Print Assumptions C21_negative_zero_refuted.

(** What holds: without plain float and double fields (that is, when all of them are optional,
    repeated or oneof members) every bit pattern survives. Missing: plain fields. *)
Theorem C21_negative_zero_partial : forall fs os v v0, let t := EMsg fs os in
  no_plain_float t -> desc_ok t -> wt t v -> zlen (enc t (view t v)) < 2 ^ 32 ->
  v0 = default_value t \/ (exists w, wt t w /\ clear t w = Done v0) ->
  forall cap b c n b', wfix_rel cap b c (Some n) ->
  serialize t v _ (wfix_ops cap) b = Done (NoErrors, b') ->
  exists bytes, wfix_content b' = wfix_content b ++ bytes /\
  forall S (R : rops S) rel, reader_ok R rel -> forall s, rel s bytes ->
  forall fuel, (length bytes < fuel)%nat ->
  exists v' s', deserialize fuel t S R v0 s = Done (NoErrors, v', s') /\ view t v' = view t v.
Proof. exact neg_zero_partial. Qed.
Print Assumptions C21_negative_zero_partial.

(** outer_v holds -0.0 in its optional float field. *)
Example C21_applies : no_plain_float Outer /\ wt Outer outer_v
  /\ nth_error (match view Outer outer_v with SvM vs _ => vs | _ => [] end) 4 = Some (SvSome (SvZ (2 ^ 31))).
Proof. split; [cbn; tauto|]. split; [exact outer_v_wt|reflexivity]. Qed.

(** C22: deserialize() of any well-formed record sequence succeeds, consumes everything and merges
    the records into the object; the object stays valid and clean. *)
Theorem C22_merge : forall fs os v bs new, let t := EMsg fs os in
  desc_ok t -> wt t v -> clean t v -> mdec fs os (view t v) bs new ->
  forall S (R : rops S) rel, reader_ok R rel -> forall s, rel s bs ->
  forall fuel, (length bs < fuel)%nat ->
  exists v' s', deserialize fuel t S R v s = Done (NoErrors, v', s')
    /\ rel s' [] /\ view t v' = new /\ wt t v' /\ clean t v'.
Proof. exact decode_merge. Qed.
Print Assumptions C22_merge.

(** Two-byte tag, packed values, a nested message, two members of one oneof. *)
Example C22_applies : desc_ok Outer /\ wt Outer (default_value Outer) /\ clean Outer (default_value Outer)
  /\ mdec outer_fields outer_oneofs (view Outer (default_value Outer)) sample_a sample_mid
  /\ (forall cap, reader_ok (rfix_ops cap) (rfix_rel cap))
  /\ rfix_rel 9 (rfix_of sample_a) sample_a.
Proof.
  split; [exact Outer_ok|]. split; [exact outer_default_wt|]. split; [exact outer_default_clean|].
  split; [exact sample_a_ok|]. split; [exact rfix_ok|].
  apply (rfix_of_rel sample_a); [vm_compute; reflexivity|]. vm_compute. repeat constructor; congruence.
Qed.

(** C23: decoding a concatenation is decoding one part after the other into the same object. *)
Theorem C23_concatenation : forall fs os v a b mid new, let t := EMsg fs os in
  desc_ok t -> wt t v -> clean t v -> mdec fs os (view t v) a mid -> mdec fs os mid b new ->
  forall S (R : rops S) rel, reader_ok R rel -> forall sa sb sab, rel sa a -> rel sb b -> rel sab (a ++ b) ->
  forall fuel, (length (a ++ b) < fuel)%nat ->
  exists v1 s1 v2 s2 v3 s3,
    deserialize fuel t S R v sa = Done (NoErrors, v1, s1)
    /\ deserialize fuel t S R v1 sb = Done (NoErrors, v2, s2)
    /\ deserialize fuel t S R v sab = Done (NoErrors, v3, s3)
    /\ view t v3 = view t v2.
Proof. exact decode_concat. Qed.
Print Assumptions C23_concatenation.

Example C23_applies : wt Outer (default_value Outer) /\ clean Outer (default_value Outer)
  /\ mdec outer_fields outer_oneofs (view Outer (default_value Outer)) sample_a sample_mid
  /\ mdec outer_fields outer_oneofs sample_mid sample_b sample_new.
Proof.
  split; [exact outer_default_wt|]. split; [exact outer_default_clean|].
  split; [exact sample_a_ok|exact sample_b_ok].
Qed.

(** C24: unknown records between the records of an encoding ([padded], Spec.v) change nothing. *)
Theorem C24_unknown_fields : forall fs os v bs new bs', let t := EMsg fs os in
  desc_ok t -> wt t v -> clean t v -> padded fs os (view t v) bs new bs' ->
  forall S (R : rops S) rel, reader_ok R rel -> forall s s', rel s bs -> rel s' bs' ->
  forall fuel, (length bs < fuel)%nat -> (length bs' < fuel)%nat ->
  exists v1 s1 v2 s2, deserialize fuel t S R v s = Done (NoErrors, v1, s1)
    /\ deserialize fuel t S R v s' = Done (NoErrors, v2, s2) /\ view t v1 = view t v2.
Proof. exact unknown_skipped. Qed.
Print Assumptions C24_unknown_fields.

Example C24_applies : padded outer_fields outer_oneofs (view Outer (default_value Outer)) sample_a sample_mid
  ((r_unknown ++ r_unknown2) ++ r_u ++ [] ++ r_r ++ r_unknown ++ r_unknown2).
Proof. exact sample_padded. Qed.

(** C40: after clear() every getter shows the default and serialize() writes nothing, to any buffer. *)
Theorem C40_clear : forall fs os v, let t := EMsg fs os in
  desc_ok t -> wt t v ->
  exists v', clear t v = Done v' /\ view t v' = sdefault t /\ wt t v' /\ clean t v'
  /\ serialized_size (serialize t v') = Done 0
  /\ forall S (W : wops S) rel exact, writer_ok W rel exact -> forall s c room, rel s c room ->
     exists s', serialize t v' S W s = Done (NoErrors, s') /\ rel s' c room.
Proof. exact clear_default. Qed.
Print Assumptions C40_clear.

Example C40_applies : desc_ok Outer /\ wt Outer outer_v /\ view Outer outer_v <> sdefault Outer
  /\ exists v', clear Outer outer_v = Done v' /\ view Outer v' = sdefault Outer.
Proof.
  split; [exact Outer_ok|]. split; [exact outer_v_wt|]. split; [vm_compute; discriminate|].
  eexists. split; vm_compute; reflexivity.
Qed.

(** C47: serializing a decoded message and decoding that again shows the same values (up to [norm],
    as in C20). *)
Theorem C47_reencode : forall fs os v0 bs new, let t := EMsg fs os in
  desc_ok t -> wt t v0 -> clean t v0 -> mdec fs os (view t v0) bs new -> zlen (enc t new) < 2 ^ 32 ->
  forall S (R : rops S) rel, reader_ok R rel -> forall s, rel s bs -> forall fuel, (length bs < fuel)%nat ->
  exists v1 s1, deserialize fuel t S R v0 s = Done (NoErrors, v1, s1)
  /\ forall cap b b', wfix_rel cap b [] (Some cap) -> serialize t v1 _ (wfix_ops cap) b = Done (NoErrors, b') ->
     forall s2, rel s2 (wfix_content b') -> forall fuel', (length (wfix_content b') < fuel')%nat ->
     exists v2 s3, deserialize fuel' t S R (default_value t) s2 = Done (NoErrors, v2, s3)
       /\ view t v2 = norm t (view t v1) /\ (no_neg_zero t (view t v1) -> view t v2 = view t v1).
Proof. exact reencode_stable. Qed.
Print Assumptions C47_reencode.

Example C47_applies : wt Outer (default_value Outer) /\ clean Outer (default_value Outer)
  /\ mdec outer_fields outer_oneofs (view Outer (default_value Outer)) sample_a sample_mid
  /\ zlen (enc Outer sample_mid) = 8 /\ enc Outer sample_mid <> sample_a.
Proof.
  split; [exact outer_default_wt|]. split; [exact outer_default_clean|].
  split; [exact sample_a_ok|]. split; vm_compute; congruence.
Qed.
