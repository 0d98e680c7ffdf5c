(** Property C60, filling a read buffer, and what C18, C20, C22 and C24 mean for the two buffer classes
    of the library. [run_lcalls], [run_tape], [filled] are defined in SpecLoad.v. *)
From Verif Require Import Base Buffers Wire Schema Fields Message Api Spec SpecBuffer SpecLoad Contracts BufferProofs
  Samples DecodeSamples LoadProps.

(** C60: copying bytes to get_data() and set_bytes_written() make these bytes the unread ones. The full
    statement is the next theorem without [loads_unread]. It is false for every byte: when something was
    read before, the new bytes are skipped. *)
Theorem C60_load_refuted : forall x y, is_byte x -> is_byte y ->
  exists b, run_lcalls 1 [LLoad [x] 1; LCall RPop; LLoad [y] 1; LCall RPop] (rfix_init 1)
    = Done ([OBool true; OByte (Some x); OBool true; OByte None], b)
  /\ fst (run_tape false 1 [LLoad [x] 1; LCall RPop; LLoad [y] 1; LCall RPop] ([], O))
    = [OBool true; OByte (Some x); OBool true; OByte (Some y)].
Proof. exact load_refuted. Qed.
Print Assumptions C60_load_refuted.

(** What holds: every history in which nothing was read since the last clear() when bytes are loaded. *)
Theorem C60_load_partial : forall cap cs, 0 <= cap < 2 ^ 32 -> Forall (lcall_plain cap) cs -> loads_unread cap cs ([], O) ->
  exists b, run_lcalls cap cs (rfix_init cap) = Done (fst (run_tape false cap cs ([], O)), b).
Proof. exact load_history. Qed.
Print Assumptions C60_load_partial.

(** And in every history: a load keeps the number of bytes read. *)
Theorem C60_load_keeps_position : forall cap cs, 0 <= cap < 2 ^ 32 -> Forall (lcall_plain cap) cs ->
  exists b, run_lcalls cap cs (rfix_init cap) = Done (fst (run_tape true cap cs ([], O)), b).
Proof. exact load_kept. Qed.
Print Assumptions C60_load_keeps_position.

(** Any argument of set_bytes_written() and advance(N), in any order: no access leaves the array and
    get_size() is at most the capacity. *)
Theorem C60_inside : forall cap cs, 0 <= cap < 2 ^ 32 -> Forall (lcall_legal cap) cs ->
  exists outs b, run_lcalls cap cs (rfix_init cap) = Done (outs, b) /\ zlen (rf_data b) = cap
    /\ 0 <= r_get_size (rfix_ops cap) b <= cap.
Proof. exact load_inside. Qed.
Print Assumptions C60_inside.

Example C60_applies :
  let cs := [LLoad [7; 8; 9] 3; LCall RPop; LCall (RPush 10); LCall (RAdvanceN 2); LCall RPop; LCall RClear;
             LLoad [5] 1; LCall RPeek; LCall RPop; LCall RPop] in
  Forall (lcall_plain 4) cs /\ loads_unread 4 cs ([], O)
  /\ fst (run_tape false 4 cs ([], O))
     = [OBool true; OByte (Some 7); OBool true; OBool true; OByte (Some 10); OBool true;
        OBool true; OByte (Some 5); OByte (Some 5); OByte None].
Proof.
  split; [|split; [cbn; tauto|reflexivity]].
  repeat constructor; cbn; unfold is_byte; try lia; repeat constructor; lia.
Qed.

Example C60_inside_applies : exists b,
  run_lcalls 2 [LLoad [7; 8] 1000; LCall RPop; LCall RPop; LCall RPop; LCall (RAdvanceN (2 ^ 32 - 1)); LCall RPop; LLoad [] 0; LCall RPop]
    (rfix_init 2)
  = Done ([OBool true; OByte (Some 7); OByte (Some 8); OByte None; OBool true; OByte (Some 8); OBool true; OByte None], b).
Proof. eexists. reflexivity. Qed.

(** C18 for a WriteBufferFixedSize in any state: the array keeps its size, what was written before stays
    in front. *)
Theorem C18_fixed_buffer : forall fs os v cap b c n, let t := EMsg fs os in
  wt t v -> desc_ok t -> zlen (enc t (view t v)) < 2 ^ 32 -> wfix_rel cap b c (Some n) ->
  exists e b', serialize t v wfix (wfix_ops cap) b = Done (e, b') /\ zlen (wf_data b') = cap
    /\ ((e = NoErrors /\ wfix_content b' = wfix_content b ++ enc t (view t v))
        \/ (e = BufferFull /\ exists pre suf, enc t (view t v) = pre ++ suf /\ suf <> []
             /\ wfix_content b' = wfix_content b ++ pre)).
Proof. exact fixed_prefix_or_all. Qed.
Print Assumptions C18_fixed_buffer.

Example C18_fixed_applies : exists b, wfix_push 10 (wfix_init 10) 99 = Done (true, b)
  /\ exists b', serialize Outer outer_v _ (wfix_ops 10) b = Done (BufferFull, b')
  /\ wfix_content b' = [99; 8; 172; 2; 18; 3; 97; 98; 99; 26].
Proof. eexists. split; [reflexivity|]. eexists. split; vm_compute; reflexivity. Qed.

(** C20 through both classes: the receiver may fill its buffer by push() or by copying, in any history
    that leaves the bytes unread. *)
Theorem C20_fixed_buffers : forall fs os v v0 cap b c n b', let t := EMsg fs os in
  desc_ok t -> wt t v -> zlen (enc t (view t v)) < 2 ^ 32 ->
  v0 = default_value t \/ (exists w, wt t w /\ clear t w = Done v0) ->
  wfix_rel cap b c (Some n) -> serialize t v _ (wfix_ops cap) b = Done (NoErrors, b') ->
  exists bytes : list Z, wfix_content b' = wfix_content b ++ bytes /\
  forall cap' r, filled cap' r bytes -> forall fuel, (length bytes < fuel)%nat ->
  exists v' r', deserialize fuel t rfix (rfix_ops cap') v0 r = Done (NoErrors, v', r')
    /\ view t v' = norm t (view t v) /\ (no_neg_zero t (view t v) -> view t v' = view t v).
Proof. exact fixed_round_trip. Qed.
Print Assumptions C20_fixed_buffers.

(** Every byte string can be filled in, both ways. *)
Theorem C60_fill_push : forall cap bytes, 0 <= cap < 2 ^ 32 -> Forall is_byte bytes -> zlen bytes <= cap ->
  exists b, run_lcalls cap (map (fun x => LCall (RPush x)) bytes) (rfix_init cap)
            = Done (map (fun _ => OBool true) bytes, b) /\ filled cap b bytes.
Proof. exact pushes_filled. Qed.
Print Assumptions C60_fill_push.

Theorem C60_fill_copy : forall cap bytes, 0 <= cap < 2 ^ 32 -> Forall is_byte bytes -> zlen bytes <= cap ->
  exists b, run_lcalls cap [LLoad bytes (zlen bytes)] (rfix_init cap) = Done ([OBool true], b) /\ filled cap b bytes.
Proof. exact load_filled. Qed.
Print Assumptions C60_fill_copy.

Example C60_fill_applies : exists b, filled 100 b sample_a /\ sample_a <> [].
Proof.
  destruct (C60_fill_copy 100 sample_a) as (b & _ & H);
    [lia|vm_compute; repeat constructor; congruence|vm_compute; congruence|].
  exists b. split; [exact H|discriminate].
Qed.

(** C22 and C24 for a ReadBufferFixedSize. *)
Theorem C22_fixed_buffer : forall fs os v bs new cap r, let t := EMsg fs os in
  desc_ok t -> wt t v -> clean t v -> mdec fs os (view t v) bs new -> filled cap r bs ->
  forall fuel, (length bs < fuel)%nat ->
  exists v' r', deserialize fuel t rfix (rfix_ops cap) v r = Done (NoErrors, v', r')
    /\ view t v' = new /\ wt t v' /\ clean t v' /\ r_pop (rfix_ops cap) r' = Done (None, r').
Proof. exact fixed_merge. Qed.
Print Assumptions C22_fixed_buffer.

Theorem C24_fixed_buffer : forall fs os v bs new bs' cap1 r1 cap2 r2, let t := EMsg fs os in
  desc_ok t -> wt t v -> clean t v -> padded fs os (view t v) bs new bs' ->
  filled cap1 r1 bs -> filled cap2 r2 bs' ->
  forall fuel1 fuel2, (length bs < fuel1)%nat -> (length bs' < fuel2)%nat ->
  exists v1 s1 v2 s2, deserialize fuel1 t rfix (rfix_ops cap1) v r1 = Done (NoErrors, v1, s1)
    /\ deserialize fuel2 t rfix (rfix_ops cap2) v r2 = Done (NoErrors, v2, s2) /\ view t v1 = view t v2.
Proof. exact fixed_unknown. Qed.
Print Assumptions C24_fixed_buffer.

Example C22_fixed_applies : desc_ok Outer /\ wt Outer (default_value Outer) /\ clean Outer (default_value Outer)
  /\ mdec outer_fields outer_oneofs (view Outer (default_value Outer)) sample_a sample_mid
  /\ padded outer_fields outer_oneofs (view Outer (default_value Outer)) sample_a sample_mid
       ((r_unknown ++ r_unknown2) ++ r_u ++ [] ++ r_r ++ r_unknown ++ r_unknown2).
Proof.
  split; [exact Outer_ok|]. split; [exact outer_default_wt|]. split; [exact outer_default_clean|].
  split; [exact sample_a_ok|exact sample_padded].
Qed.
