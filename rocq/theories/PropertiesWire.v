(** Properties of the wire formatter: C01-C09 and C48. *)
From Verif Require Import Base Buffers Wire Schema Fields Spec Contracts BufferProofs ReadProofs WireProps BufferLaws.

(** C01: one byte string is what every conforming write buffer receives, and every conforming read
    buffer that starts with it gives the value back and continues right behind it. *)
Theorem C01_varint_round_trip : forall w v, w = 32 \/ w = 64 -> 0 <= v < 2 ^ w ->
  exists bs,
    (forall S (W : wops S) rel exact, writer_ok W rel exact -> emits rel (SerializeVarint W v) bs)
    /\ (forall S (R : rops S) rel, reader_ok R rel -> reads rel (DeserializeVarint R w) bs v).
Proof. exact varint_round_trip. Qed.
Print Assumptions C01_varint_round_trip.

Example C01_applies :
  SerializeVarint (wfix_ops 4) 300 (wfix_init 4)
    = Done (NoErrors, {| wf_data := [172; 2; 0; 0]; wf_w := 2 |})
  /\ DeserializeVarint (rfix_ops 4) 32 (rfix_of [172; 2; 7; 7])
    = Done (NoErrors, Some 300, {| rf_data := [172; 2; 7; 7]; rf_w := 4; rf_r := 2 |})
  /\ writer_ok (wfix_ops 4) (wfix_rel 4) False /\ wfix_rel 4 (wfix_init 4) [] (Some 4)
  /\ reader_ok (rfix_ops 4) (rfix_rel 4) /\ rfix_rel 4 (rfix_of [172; 2; 7; 7]) ([172; 2] ++ [7; 7]).
Proof.
  split; [reflexivity|]. split; [reflexivity|]. split; [apply wfix_ok|].
  split; [apply wfix_init_rel; lia|]. split; [apply rfix_ok|].
  apply (rfix_of_rel [172; 2; 7; 7]); [cbn; lia|repeat constructor; cbn; lia].
Qed.

(** C02 *)
Theorem C02_varint_canonical : forall v, 0 <= v < 2 ^ 64 ->
  exists init last,
    (forall S (W : wops S) rel exact, writer_ok W rel exact ->
       emits rel (SerializeVarint W v) (init ++ [last]))
    /\ Forall (fun b => 128 <= b < 256) init /\ 0 <= last < 128
    /\ varint_value (init ++ [last]) = v
    /\ (init <> [] -> last <> 0)
    /\ (length (init ++ [last]) <= 10)%nat /\ (v < 2 ^ 32 -> (length (init ++ [last]) <= 5)%nat).
Proof. exact varint_canonical. Qed.
Print Assumptions C02_varint_canonical.

(** C02, second half: the conditions above determine the bytes. *)
Theorem C02_canonical_unique : forall i1 l1 i2 l2,
  Forall (fun b => 128 <= b < 256) i1 -> 0 <= l1 < 128 -> (i1 <> [] -> l1 <> 0) ->
  Forall (fun b => 128 <= b < 256) i2 -> 0 <= l2 < 128 -> (i2 <> [] -> l2 <> 0) ->
  varint_value (i1 ++ [l1]) = varint_value (i2 ++ [l2]) -> i1 ++ [l1] = i2 ++ [l2].
Proof. exact canonical_unique. Qed.
Print Assumptions C02_canonical_unique.

Example C02_applies : exists b, SerializeVarint (wfix_ops 10) (2 ^ 64 - 1) (wfix_init 10) = Done (NoErrors, b)
  /\ wfix_content b = [255; 255; 255; 255; 255; 255; 255; 255; 255; 1]
  /\ varint_value (wfix_content b) = 2 ^ 64 - 1.
Proof. eexists. split; [reflexivity|]. split; reflexivity. Qed.

(** C03: [vbytes w] is 5 for 32 and 10 for 64 bits. The three cases exclude one another, so each is
    returned exactly for the byte strings described. *)
Theorem C03_varint_reader_total : forall S (R : rops S) rel w, reader_ok R rel -> w = 32 \/ w = 64 ->
  forall s l, rel s l ->
  let k := if w =? 32 then 5%nat else 10%nat in
  (exists bs rest s', l = bs ++ rest /\ varint_wf k bs
     /\ DeserializeVarint R w s = Done (NoErrors, Some (varint_value bs mod 2 ^ w), s') /\ rel s' rest)
  \/ (exists hd rest s', l = hd ++ rest /\ length hd = k /\ Forall (fun b => 128 <= b < 256) hd
     /\ DeserializeVarint R w s = Done (OverlongVarint, None, s') /\ rel s' rest)
  \/ (exists s', (length l < k)%nat /\ Forall (fun b => 128 <= b < 256) l
     /\ DeserializeVarint R w s = Done (EndOfBuffer, None, s') /\ rel s' []).
Proof. exact varint_reader_total. Qed.
Print Assumptions C03_varint_reader_total.

Example C03_applies :
  DeserializeVarint (rfix_ops 3) 32 (rfix_of [172; 2; 9])
    = Done (NoErrors, Some 300, {| rf_data := [172; 2; 9]; rf_w := 3; rf_r := 2 |})
  /\ DeserializeVarint (rfix_ops 6) 32 (rfix_of [255; 255; 255; 255; 255; 1])
    = Done (OverlongVarint, None, {| rf_data := [255; 255; 255; 255; 255; 1]; rf_w := 6; rf_r := 5 |})
  /\ DeserializeVarint (rfix_ops 1) 32 (rfix_of [172])
    = Done (EndOfBuffer, None, {| rf_data := [172]; rf_w := 1; rf_r := 1 |}).
Proof. repeat split. Qed.

(** C04: [zigzag n] is 2n or -2n-1 (Spec.v). *)
Theorem C04_zigzag : forall w, w = 32 \/ w = 64 ->
  (forall n, - 2 ^ (w - 1) <= n < 2 ^ (w - 1) ->
     ZigZagEncode w n = (if 0 <=? n then 2 * n else - 2 * n - 1)
     /\ ZigZagDecode w (ZigZagEncode w n) = n)
  /\ (forall u, 0 <= u < 2 ^ w ->
     - 2 ^ (w - 1) <= ZigZagDecode w u < 2 ^ (w - 1) /\ ZigZagEncode w (ZigZagDecode w u) = u).
Proof. exact zigzag_bijection. Qed.
Print Assumptions C04_zigzag.

Example C04_applies : ZigZagEncode 32 (- 2 ^ 31) = 2 ^ 32 - 1 /\ ZigZagEncode 64 (-3) = 5
  /\ ZigZagDecode 32 5 = -3.
Proof. repeat split. Qed.

(** C05: [le k v] is the list of the k bytes of v, least significant first (Spec.v). *)
Theorem C05_fixed_round_trip : forall k v, (k = 4 \/ k = 8)%nat -> 0 <= v < 2 ^ (8 * Z.of_nat k) ->
  (forall S (W : wops S) rel exact, writer_ok W rel exact ->
     emits rel (SerializeFixedNoTag W (8 * Z.of_nat k) v) (le k v))
  /\ length (le k v) = k /\ le_value (le k v) = v
  /\ (forall S (R : rops S) rel, reader_ok R rel ->
       reads rel (DeserializeFixed R (8 * Z.of_nat k)) (le k v) v
       /\ forall s l, rel s l -> (length l < k)%nat ->
            exists s', DeserializeFixed R (8 * Z.of_nat k) s = Done (EndOfBuffer, None, s') /\ rel s' []).
Proof. exact fixed_round_trip. Qed.
Print Assumptions C05_fixed_round_trip.

Example C05_applies : le 4 (2 ^ 24 + 2) = [2; 0; 0; 1]
  /\ SerializeFixedNoTag (wfix_ops 4) 32 (2 ^ 24 + 2) (wfix_init 4)
     = Done (NoErrors, {| wf_data := [2; 0; 0; 1]; wf_w := 4 |}).
Proof. split; reflexivity. Qed.

(** C06 *)
Theorem C06_tag_round_trip : forall num w, 1 <= num < 2 ^ 29 ->
  exists bs,
    (forall S (W : wops S) rel exact, writer_ok W rel exact ->
       emits rel (SerializeVarint W (MakeTag num w)) bs)
    /\ (forall S (R : rops S) rel, reader_ok R rel -> reads rel (DeserializeTag R) bs (w, num)).
Proof. exact tag_round_trip. Qed.
Print Assumptions C06_tag_round_trip.

Theorem C06_tag_reader_rejects : forall S (R : rops S) rel, reader_ok R rel -> forall s l, rel s l ->
  (forall bs rest, l = bs ++ rest -> varint_wf 5 bs -> 6 <= varint_value bs mod 8 ->
     exists s', DeserializeTag R s = Done (InvalidWiretype, None, s') /\ rel s' rest)
  /\ (forall e s', DeserializeVarint R 32 s = Done (e, None, s') -> DeserializeTag R s = Done (e, None, s')).
Proof. exact tag_reader_rejects. Qed.
Print Assumptions C06_tag_reader_rejects.

Example C06_applies :
  SerializeVarint (wfix_ops 4) (MakeTag 100 LENDEL) (wfix_init 4)
    = Done (NoErrors, {| wf_data := [162; 6; 0; 0]; wf_w := 2 |})
  /\ DeserializeTag (rfix_ops 2) (rfix_of [162; 6])
    = Done (NoErrors, Some (LENDEL, 100), {| rf_data := [162; 6]; rf_w := 2; rf_r := 2 |})
  /\ DeserializeTag (rfix_ops 1) (rfix_of [15])
    = Done (InvalidWiretype, None, {| rf_data := [15]; rf_w := 1; rf_r := 1 |})
  /\ (varint_wf 5 [15] /\ 6 <= varint_value [15] mod 8).
Proof.
  repeat split; try (cbn; lia). exists [], 15. repeat split; try (cbn; lia). constructor.
Qed.

(** C07: [short] is what int32 writes, [long] is the 64-bit sign-extended form. *)
Theorem C07_int32_both_conventions : forall n, - 2 ^ 31 <= n < 0 ->
  exists short long : list Z, length short = 5%nat /\ length long = 10%nat
  /\ varint_value long = n mod 2 ^ 64
  /\ (forall S (W : wops S) rel exact, writer_ok W rel exact ->
        emits rel (scalar_serialize_z Int32 n W) short /\ emits rel (scalar_serialize_z Int64 n W) long)
  /\ (forall S (R : rops S) rel, reader_ok R rel ->
        reads rel (scalar_deserialize_z Int32 R) short n /\ reads rel (scalar_deserialize_z Int32 R) long n).
Proof. exact int32_both_conventions. Qed.
Print Assumptions C07_int32_both_conventions.

Example C07_applies :
  DeserializeInt (rfix_ops 5) 32 (rfix_of [254; 255; 255; 255; 15])
    = Done (NoErrors, Some (-2), {| rf_data := [254; 255; 255; 255; 15]; rf_w := 5; rf_r := 5 |})
  /\ DeserializeInt (rfix_ops 10) 32 (rfix_of [254; 255; 255; 255; 255; 255; 255; 255; 255; 1])
    = Done (NoErrors, Some (-2),
            {| rf_data := [254; 255; 255; 255; 255; 255; 255; 255; 255; 1]; rf_w := 10; rf_r := 10 |}).
Proof. split; reflexivity. Qed.

(** C08: all 14 scalar classes, all representable values ([scalar_range], Spec.v). *)
Theorem C08_scalar_round_trip : forall sc z, scalar_range sc z ->
  exists bs,
    (forall S (W : wops S) rel exact, writer_ok W rel exact -> emits rel (scalar_serialize_z sc z W) bs)
    /\ (forall S (R : rops S) rel, reader_ok R rel -> reads rel (scalar_deserialize_z sc R) bs z).
Proof. exact scalar_round_trip. Qed.
Print Assumptions C08_scalar_round_trip.

Example C08_applies : scalar_range FloatFixed 2143289345 (* a NaN with payload *)
  /\ scalar_range SInt64 (- 2 ^ 63) /\ scalar_range Enumeration (2 ^ 32 - 1)
  /\ exists b, scalar_serialize_z SInt64 (- 2 ^ 63) (wfix_ops 10) (wfix_init 10) = Done (NoErrors, b)
     /\ exists r, scalar_deserialize_z SInt64 (rfix_ops 10) (rfix_of (wfix_content b))
                  = Done (NoErrors, Some (- 2 ^ 63), r).
Proof.
  split; [cbn; lia|]. split; [cbn; lia|]. split; [cbn; lia|].
  eexists. split; [reflexivity|]. eexists. vm_compute. reflexivity.
Qed.

(** C09: the full statement is false of the code: the bool reader takes a single byte. *)
Theorem C09_bool_any_varint_refuted :
  ~ (forall bs, varint_wf 10 bs -> forall S (R : rops S) rel, reader_ok R rel ->
     reads rel (DeserializeBool R) bs (if varint_value bs =? 0 then 0 else 1)).
Proof. exact bool_two_bytes. Qed.
Print Assumptions C09_bool_any_varint_refuted.

(** No varint of two or more bytes is read: after its first byte, which makes a true, the others are still there. *)
Theorem C09_longer_refuted : forall b bs, varint_wf 10 (b :: bs) -> bs <> [] ->
  forall S (R : rops S) rel, reader_ok R rel -> reads rel (DeserializeBool R) [b] 1.
Proof. exact bool_longer. Qed.
Print Assumptions C09_longer_refuted.

Example C09_longer_applies : varint_wf 10 [128; 0] /\ varint_value [128; 0] = 0
  /\ DeserializeBool (rfix_ops 2) (rfix_of [128; 0])
     = Done (NoErrors, Some 1, {| rf_data := [128; 0]; rf_w := 2; rf_r := 1 |}).
Proof.
  split; [|split; reflexivity]. exists [128], 0. cbn. repeat split; try lia. repeat constructor; lia.
Qed.

(** What holds: one-byte varints. Missing: varints of two or more bytes. *)
Theorem C09_bool_one_byte_partial : forall b, 0 <= b < 128 ->
  forall S (R : rops S) rel, reader_ok R rel ->
  reads rel (DeserializeBool R) [b] (if b =? 0 then 0 else 1).
Proof. exact bool_one_byte. Qed.
Print Assumptions C09_bool_one_byte_partial.

Example C09_applies : DeserializeBool (rfix_ops 1) (rfix_of [1])
  = Done (NoErrors, Some 1, {| rf_data := [1]; rf_w := 1; rf_r := 1 |}).
Proof. reflexivity. Qed.

(** C48: [raw_serialize] names the public function for each type (WireProps.v). *)
Theorem C48_raw_equals_field : forall sc num z, scalar_range sc z -> 1 <= num < 2 ^ 29 ->
  (forall S (W : wops S) s, raw_serialize sc W num z s = scalar_serialize_with_id sc (VS z) num S W s)
  /\ (forall S (W : wops S) rel exact, writer_ok W rel exact ->
        emits rel (raw_serialize sc W num z) (tag num (scalar_wiretype sc) ++ scalar_enc sc z)).
Proof. exact raw_equals_field. Qed.
Print Assumptions C48_raw_equals_field.

Example C48_applies : SerializeSInt (wfix_ops 4) 32 5 (-100) (wfix_init 4)
  = Done (NoErrors, {| wf_data := [40; 199; 1; 0]; wf_w := 3 |}).
Proof. reflexivity. Qed.

(** The public reader for enums, which the generated code does not call: it takes a varint of up to ten bytes
    and keeps its low 32 bits; it decides every byte string as the varint reader (C03) does. *)
Theorem C48_enum_reader : forall S (R : rops S) rel, reader_ok R rel -> forall s l, rel s l ->
  (exists bs rest s', l = bs ++ rest /\ varint_wf 10 bs
     /\ DeserializeEnum R s = Done (NoErrors, Some (varint_value bs mod 2 ^ 32), s') /\ rel s' rest)
  \/ (exists hd rest s', l = hd ++ rest /\ length hd = 10%nat /\ Forall (fun b => 128 <= b < 256) hd
     /\ DeserializeEnum R s = Done (OverlongVarint, None, s') /\ rel s' rest)
  \/ (exists s', (length l < 10)%nat /\ Forall (fun b => 128 <= b < 256) l
     /\ DeserializeEnum R s = Done (EndOfBuffer, None, s') /\ rel s' []).
Proof. exact enum_reader. Qed.
Print Assumptions C48_enum_reader.

Example C48_enum_reader_applies :
  DeserializeEnum (rfix_ops 6) (rfix_of [255; 255; 255; 255; 31; 9])
    = Done (NoErrors, Some 4294967295, {| rf_data := [255; 255; 255; 255; 31; 9]; rf_w := 6; rf_r := 5 |})
  /\ DeserializeEnum (rfix_ops 2) (rfix_of [255; 255]) = Done (EndOfBuffer, None, {| rf_data := [255; 255]; rf_w := 2; rf_r := 2 |}).
Proof. split; reflexivity. Qed.
