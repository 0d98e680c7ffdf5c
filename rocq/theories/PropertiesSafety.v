(** * Properties C27, C28 and C46: decoding of arbitrary bytes.

    [res] makes memory safety visible: [UB] is an access outside an array or the use of an
    uninitialised value. [Fuel] means that the loop of some message or packed field had not ended
    after [fuel] rounds. [wt t v] is a valid object: array sizes, lengths within capacity, initialised
    values in range, a live oneof member (Spec.v). [reader_safe], [reader_ok]: Contracts.v. *)
From Verif Require Import Base Buffers Wire Schema Fields Message Spec Contracts BufferProofs Samples
  DecodeSamples SafetyProps.

(** C27: for every message type, valid object, safe read buffer and whatever it contains, decoding
    performs no undefined operation and leaves the object valid, on success and on error. That every
    object reached through the API is valid is [C27_reachable] in PropertiesApi.v. *)
Theorem C27_decode_safe : forall fs os v, let t := EMsg fs os in
  desc_ok t -> wt t v ->
  forall S (R : rops S) inv strict, reader_safe R inv strict -> (forall s m, inv s m -> r_get_size R s < 2 ^ 32) ->
  forall s m fuel, inv s m ->
  match deserialize fuel t S R v s with
  | Done (_, v', s') => wt t v' /\ exists m', inv s' m'
  | UB => False
  | Fuel => True
  end.
Proof. exact decode_safe. Qed.
Print Assumptions C27_decode_safe.

(** The same for the fixed-size buffer and any bytes. *)
Theorem C27_decode_safe_fixed : forall fs os v bytes fuel, let t := EMsg fs os in
  desc_ok t -> wt t v -> zlen bytes < 2 ^ 32 -> Forall is_byte bytes ->
  match deserialize fuel t rfix (rfix_ops (zlen bytes)) v (rfix_of bytes) with
  | Done (_, v', _) => wt t v'
  | UB => False
  | Fuel => True
  end.
Proof. exact decode_safe_fixed. Qed.
Print Assumptions C27_decode_safe_fixed.

(** Malformed input for a filled object: a nested message that ends inside a tag. *)
Example C27_applies : desc_ok Outer /\ wt Outer outer_v
  /\ reader_safe (rfix_ops 4) (rfix_inv 4) False
  /\ rfix_inv 4 (rfix_of [50; 1; 136; 255]) 4
  /\ exists v' s', deserialize 10 Outer rfix (rfix_ops 4) outer_v (rfix_of [50; 1; 136; 255]) = Done (NoErrors, v', s').
Proof.
  split; [exact Outer_ok|]. split; [exact outer_v_wt|]. split; [apply rfix_safe|].
  split; [apply (rfix_of_inv [50; 1; 136; 255]); [vm_compute; reflexivity|repeat constructor; lia]|].
  do 2 eexists. vm_compute. reflexivity.
Qed.

(** C28: false. For every message type and every field number it does not have there is an input of at
    most ten bytes on which deserialize() never returns, whatever the object: the declared length of
    an unknown field makes the 32-bit read index wrap to 0. *)
Theorem C28_termination_refuted : forall fs os num, 0 < num < 2 ^ 29 -> ~ In num (field_numbers fs os) ->
  exists bytes, Forall is_byte bytes /\ zlen bytes <= 10 /\
  forall v fuel, wt (EMsg fs os) v ->
    deserialize fuel (EMsg fs os) rfix (rfix_ops (zlen bytes)) v (rfix_of bytes) = Fuel.
Proof. exact endless_decode. Qed.
Print Assumptions C28_termination_refuted.

Example C28_refuted_applies : ~ In 9 (field_numbers outer_fields outer_oneofs)
  /\ deserialize 1000 Outer rfix (rfix_ops 6) outer_v (rfix_of [74; 250; 255; 255; 255; 15]) = Fuel.
Proof. split; [cbn; lia|vm_compute; reflexivity]. Qed.

(** What holds: the number of rounds is bounded by the number of bytes (1) for read buffers that never
    move backwards, (2) for the fixed-size buffer when no length in the input makes the read index
    wrap, (3) for a nested message, decoded from a section of any safe buffer. Missing: the
    fixed-size buffer with the remaining inputs. *)
Theorem C28_termination_partial : forall fs os v, let t := EMsg fs os in
  desc_ok t -> wt t v ->
  forall S (R : rops S) inv, reader_safe R inv True -> (forall s m, inv s m -> r_get_size R s < 2 ^ 32) ->
  forall s m fuel, inv s m -> (m < fuel)%nat -> exists e v' s', deserialize fuel t S R v s = Done (e, v', s').
Proof. exact strict_terminates. Qed.
Print Assumptions C28_termination_partial.

Theorem C28_termination_fixed_partial : forall fs os v bytes fuel, let t := EMsg fs os in
  desc_ok t -> wt t v -> zlen bytes < 2 ^ 31 -> Forall is_byte bytes ->
  (forall pre l post, bytes = pre ++ l ++ post -> varint_wf 5 l ->
     zlen pre + zlen l + varint_value l mod 2 ^ 32 < 2 ^ 32) ->
  (length bytes < fuel)%nat ->
  exists e v' s', deserialize fuel t rfix (rfix_ops (zlen bytes)) v (rfix_of bytes) = Done (e, v', s').
Proof. exact nowrap_terminates. Qed.
Print Assumptions C28_termination_fixed_partial.

Theorem C28_termination_section_partial : forall fs os v, let t := EMsg fs os in
  desc_ok t -> wt t v ->
  forall S (R : rops S) inv strict, reader_safe R inv strict -> (forall s m, inv s m -> r_get_size R s < 2 ^ 32) ->
  forall s m n fuel, inv s m -> 0 <= n -> (Z.to_nat n < fuel)%nat ->
  exists e v' sec, deserialize fuel t (section S) (sec_ops R) v (mk_section R s n) = Done (e, v', sec).
Proof. exact section_terminates. Qed.
Print Assumptions C28_termination_section_partial.

(** (1): a section is such a buffer. (2): an encoding of the sample type, and a length above 2^31. *)
Example C28_applies :
  reader_safe (sec_ops (rfix_ops 6)) (sec_inv_window (rfix_inv 6)) True
  /\ nowrap sample_a /\ nowrap [74; 250; 255; 255; 255; 8; 1].
Proof.
  split; [apply (sec_safe_window _ _ False), rfix_safe|].
  split; apply nowrapb_ok; vm_compute; reflexivity.
Qed.

(** C46. A record body is a length [l] followed by the payload [p]; after it come the bytes [tail].
    Whatever the payload contains, decoding it as a string, bytes or message leaves [tail] and an
    unread end of [p] ([rest]), which is empty on success. Missing for the full statement: payloads
    cut short by the end of the buffer, see below and C46_cut_partial in PropertiesLaws.v. *)
Theorem C46_confined_partial : forall t v l p tail,
  desc_ok t -> is_packed t = false -> wt t v -> varint32 l (zlen p) ->
  forall S (R : rops S) rel, reader_ok R rel -> forall s fuel, rel s (l ++ p ++ tail) -> (length p < fuel)%nat ->
  exists e v' s' used rest, elem_deserialize_check_type t (deserialize fuel t) LENDEL S R v s = Done (e, v', s')
    /\ p = used ++ rest /\ rel s' (rest ++ tail) /\ (e = NoErrors -> rest = []).
Proof. exact (fun t v l p tail Hok Hpk Hw Hl S R rel ok s fuel => elem_confined_done ok fuel t v s l p tail Hok Hpk Hw Hl). Qed.
Print Assumptions C46_confined_partial.

(** The same for one record of a repeated field, packed or not. When the field is already full the
    record is refused without reading anything. *)
Theorem C46_confined_repeated_partial : forall t max v l p tail,
  desc_ok t -> capacity_ok max -> wt_field (KRep max) (wt t) v -> varint32 l (zlen p) ->
  forall S (R : rops S) rel, reader_ok R rel -> forall s fuel, rel s (l ++ p ++ tail) -> (length p < fuel)%nat ->
  exists e v' s', rep_deserialize_check_type fuel t (deserialize fuel t) LENDEL S R v s = Done (e, v', s')
    /\ ((exists used rest, p = used ++ rest /\ rel s' (rest ++ tail) /\ (e = NoErrors -> rest = []))
        \/ (e = ArrayFull /\ s' = s)).
Proof. exact (fun t max v l p tail Hok Hm Hw Hl S R rel ok s fuel => rep_confined_done ok fuel t max v s l p tail Hok Hm Hw Hl). Qed.
Print Assumptions C46_confined_repeated_partial.

(** An Inner whose payload is malformed (wire type 3 of a known field), one byte of it unread. *)
Example C46_applies : desc_ok Inner /\ is_packed Inner = false /\ wt Inner (default_value Inner)
  /\ varint32 [2] (zlen [11; 8]) /\ rfix_rel 5 (rfix_of [2; 11; 8; 16; 1]) ([2] ++ [11; 8] ++ [16; 1])
  /\ exists v' s', elem_deserialize_check_type Inner (deserialize 3 Inner) LENDEL rfix (rfix_ops 5) (default_value Inner)
       (rfix_of [2; 11; 8; 16; 1]) = Done (InvalidWiretype, v', s') /\ rfix_rel 5 s' ([8] ++ [16; 1]).
Proof.
  split; [exact Inner_ok|]. split; [reflexivity|]. split; [cbn; unfold is_byte, is_u32; repeat split; try (vm_compute; congruence); lia|].
  split; [split; [exists [], 2; repeat split; auto; lia|reflexivity]|].
  split; [apply (rfix_of_rel [2; 11; 8; 16; 1]); [reflexivity|repeat constructor; lia]|].
  do 2 eexists. split; [vm_compute; reflexivity|].
  unfold rfix_rel; cbn [rf_data rf_w rf_r]. repeat split; try (vm_compute; congruence); try (repeat constructor; lia).
Qed.

(** Full statement ("on success exactly n, or all that were left") refuted: when the payload is cut
    short, decoding a nested message can succeed with payload bytes left, which the caller then reads
    as fields of the enclosing message. *)
Theorem C46_confined_refuted : exists t v l n p rest s',
  desc_ok t /\ wt t v /\ is_packed t = false /\ varint32 l n /\ zlen p < n /\ rest <> []
  /\ (let s := rfix_of (l ++ p) in rfix_rel 5 s (l ++ p) /\ rfix_rel 5 s' rest
      /\ elem_deserialize_check_type t (deserialize 10 t) LENDEL rfix (rfix_ops 5) v s = Done (NoErrors, v, s')).
Proof. exact truncated_not_confined. Qed.
Print Assumptions C46_confined_refuted.
