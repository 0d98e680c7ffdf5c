(** * Properties: what a refused record leaves in a repeated field.

    [decodes], [pre] and [SvM vs ovs]: see PropertiesMalformed.v. The type Mixed of the examples is in
    LawSamples.v. *)
From Verif Require Import Base Buffers Schema Message Api Spec SpecApi SpecHistory Contracts BufferProofs Samples DecodeSamples
  SpecRead SpecMalformed SpecRefused MalformedSamples LawSamples RefusedProps.

Local Notation mm := mixed_fields.
Local Notation mo := mixed_oneofs.
Local Notation m_start := (mdec_nil mixed_fields mixed_oneofs mixed_vs mixed_ovs).

(** C73 is false for repeated strings and bytes: a record whose length is unreadable or too large for an element
    is refused, and the list has one element more. *)
Theorem C73_string_refuted : forall fs os v vs ovs i num max st cap old tg bs e rest, let m := EMsg fs os in
  desc_ok m -> wt m v -> view m v = SvM vs ovs ->
  nth_error fs i = Some (num, KRep max, EBytes st cap) -> nth_error vs i = Some (SvR old) -> zlen old < max ->
  varint32 tg (num * 8 + wt_code LENDEL) -> refused_string cap bs e rest ->
  forall S (R : rops S) rel, reader_ok R rel -> forall s, rel s (tg ++ bs) -> forall fuel, (0 < fuel)%nat ->
  exists x v' s', deserialize fuel m S R v s = Done (e, v', s') /\ rel s' rest
    /\ view m v' = SvM (upd i (SvR (old ++ [SvB x])) vs) ovs.
Proof. exact refused_string_grows. Qed.
Print Assumptions C73_string_refuted.

(** What the new element shows is no part of the input: an element that was added and removed with set_data() is
    in the list again after a refused record. On a new object the same record leaves an empty element. *)
Theorem C73_old_content_refuted : forall fs os i num max st cap x tg bs e rest, let m := EMsg fs os in let t := EBytes st cap in
  desc_ok m -> nth_error fs i = Some (num, KRep max, t) -> wt t x -> varint32 tg (num * 8 + wt_code LENDEL) ->
  Forall is_byte (tg ++ bs) -> zlen (tg ++ bs) < 2 ^ 32 -> refused_string cap bs e rest ->
  let ops := [OpField i (OpRepAdd x); OpField i (OpRepSetData [] 0)] in
  Forall (op_ok (OElem m)) ops
  /\ (forall fuel, (0 < fuel)%nat -> exists v1 v2 v3, run_ops fuel ops (OElem m) (construct (OElem m)) = Done v1
    /\ view m v1 = sdefault m
    /\ run_op fuel (OpDeserialize (tg ++ bs)) (OElem m) v1 = Done (e, v2)
    /\ nth_error (fields_of (view m v2)) i = Some (SvR [view t x])
    /\ run_op fuel (OpDeserialize (tg ++ bs)) (OElem m) (construct (OElem m)) = Done (e, v3)
    /\ nth_error (fields_of (view m v3)) i = Some (SvR [SvB []])).
Proof. exact refused_brings_back. Qed.
Print Assumptions C73_old_content_refuted.

(** "secr" is stored and removed; a record announcing five bytes brings it back. *)
Example C73_string_applies : refused_string 4 ([5] ++ [1; 2]) ArrayFull [1; 2]
  /\ refused_string 4 [255] EndOfBuffer []
  /\ varint32 [26] (3 * 8 + wt_code LENDEL) /\ wt (EBytes true 4) (VB 4 [115; 101; 99; 114])
  /\ (exists v1 v2, run_ops 9 [OpField 2 (OpRepAdd (VB 4 [115; 101; 99; 114])); OpField 2 (OpRepSetData [] 0)] (OElem Mixed) (construct (OElem Mixed)) = Done v1
        /\ view Mixed v1 = sdefault Mixed
        /\ run_op 9 (OpDeserialize [26; 5; 1; 2]) (OElem Mixed) v1 = Done (ArrayFull, v2)
        /\ nth_error (fields_of (view Mixed v2)) 2 = Some (SvR [SvB [115; 101; 99; 114]])).
Proof.
  split; [refine (refused_too_long 4 [5] 5 [1; 2] _ _); [v32|lia]|]. split; [apply refused_length, varint_cut; [cbn; lia|repeat constructor; lia]|].
  split; [v32|]. split; [cbn; unfold is_byte; repeat split; lia|].
  do 2 eexists. split; [vm_compute; reflexivity|]. split; [vm_compute; reflexivity|]. split; [vm_compute; reflexivity|]. vm_compute. reflexivity.
Qed.

(** C73 is false for records that are cut short: the part that is there becomes an element. *)
Theorem C73_cut_refuted : forall fs os v pre vs ovs i num max st cap old tg l n p, let t := EMsg fs os in
  desc_ok t -> wt t v -> clean t v -> mdec fs os (view t v) pre (SvM vs ovs) ->
  nth_error fs i = Some (num, KRep max, EBytes st cap) -> nth_error vs i = Some (SvR old) -> zlen old < max ->
  varint32 tg (num * 8 + wt_code LENDEL) -> varint32 l n -> zlen p < n <= cap ->
  decodes t v (pre ++ tg ++ l ++ p) EndOfBuffer (SvM (upd i (SvR (old ++ [SvB p])) vs) ovs) [].
Proof. exact cut_string_grows. Qed.
Print Assumptions C73_cut_refuted.

(** C73 is false for repeated messages: when the decoder stops with an error inside the record ([mread],
    SpecRead.v), what it has read so far is an element. *)
Theorem C73_message_refuted : forall fs os v pre vs ovs i num max fs' os' old tg l p e new rest tail, let t := EMsg fs os in
  desc_ok t -> wt t v -> clean t v -> mdec fs os (view t v) pre (SvM vs ovs) ->
  nth_error fs i = Some (num, KRep max, EMsg fs' os') -> nth_error vs i = Some (SvR old) -> zlen old < max ->
  varint32 tg (num * 8 + wt_code LENDEL) -> varint32 l (zlen p) ->
  mread true true fs' os' (sdefault (EMsg fs' os')) p e new rest -> e <> NoErrors ->
  decodes t v (pre ++ tg ++ l ++ p ++ tail) e (SvM (upd i (SvR (old ++ [new])) vs) ovs) (rest ++ tail).
Proof. exact failed_message_grows. Qed.
Print Assumptions C73_message_refuted.

(** A string "ab" announced with three bytes; an Inner whose first tag has field number 0. *)
Example C73_cut_applies :
  decodes Mixed mixed_v ([] ++ [26] ++ [3] ++ [97; 98]) EndOfBuffer
    (SvM (upd 2 (SvR [SvB [97; 98]; SvB [97; 98]]) mixed_vs) mixed_ovs) []
  /\ decodes Mixed mixed_v ([] ++ [42] ++ [2] ++ [0; 5] ++ [16; 7]) InvalidFieldId
       (SvM (upd 4 (SvR [sdefault Inner]) mixed_vs) mixed_ovs) ([5] ++ [16; 7]).
Proof.
  split.
  - refine (C73_cut_refuted mm mo mixed_v [] mixed_vs mixed_ovs 2 3 2 true 4 [SvB [97; 98]] [26] [3] 3 [97; 98] Mixed_ok mixed_v_wt mixed_v_clean
      m_start eq_refl eq_refl _ _ _ _); [cbn; lia|v32|v32|cbn; lia].
  - refine (C73_message_refuted mm mo mixed_v [] mixed_vs mixed_ovs 4 5 2 inner_fields [] [] [42] [2] [0; 5] InvalidFieldId (sdefault Inner) [5] [16; 7]
      Mixed_ok mixed_v_wt mixed_v_clean m_start eq_refl eq_refl _ _ _ _ _); [cbn; lia|v32|v32| |discriminate].
    apply mread_stop; [|discriminate]. refine (rread_zero true true _ _ _ _ [0] VARINT [5] _). v32.
Qed.

(** What holds of C73: a record for a list that is full (not of packed scalars) is refused and changes nothing, *)
Theorem C73_full_partial : forall fs os v pre vs ovs i num max ty old tg bs, let t := EMsg fs os in
  desc_ok t -> wt t v -> clean t v -> mdec fs os (view t v) pre (SvM vs ovs) ->
  nth_error fs i = Some (num, KRep max, ty) -> is_packed ty = false -> nth_error vs i = Some (SvR old) -> zlen old = max ->
  varint32 tg (num * 8 + wt_code LENDEL) ->
  decodes t v (pre ++ tg ++ bs) ArrayFull (SvM vs ovs) bs.
Proof. exact full_list_kept. Qed.
Print Assumptions C73_full_partial.

(** so is a message whose length cannot be read, *)
Theorem C73_message_length_partial : forall fs os v pre vs ovs i num max fs' os' old tg bs e rest, let t := EMsg fs os in
  desc_ok t -> wt t v -> clean t v -> mdec fs os (view t v) pre (SvM vs ovs) ->
  nth_error fs i = Some (num, KRep max, EMsg fs' os') -> nth_error vs i = Some (SvR old) -> zlen old < max ->
  varint32 tg (num * 8 + wt_code LENDEL) -> varint_fails 5 bs e rest ->
  decodes t v (pre ++ tg ++ bs) e (SvM vs ovs) rest.
Proof. exact bad_message_length_kept. Qed.
Print Assumptions C73_message_length_partial.

(** a record with another wire type, *)
Theorem C73_wiretype_partial : forall fs os v pre vs ovs i num max ty old tg w bs, let t := EMsg fs os in
  desc_ok t -> wt t v -> clean t v -> mdec fs os (view t v) pre (SvM vs ovs) ->
  nth_error fs i = Some (num, KRep max, ty) -> nth_error vs i = Some (SvR old) ->
  varint32 tg (num * 8 + wt_code w) -> w <> LENDEL ->
  decodes t v (pre ++ tg ++ bs) InvalidWiretype (SvM vs ovs) bs.
Proof. exact wrong_wiretype_kept. Qed.
Print Assumptions C73_wiretype_partial.

(** and of a packed field the complete values in front of the one that is refused, or finds no room, are added, and
    no more. *)
Theorem C73_packed_partial : forall fs os v pre vs ovs i num max sc old tg l n q zs r e rest tail, let t := EMsg fs os in
  desc_ok t -> wt t v -> clean t v -> mdec fs os (view t v) pre (SvM vs ovs) ->
  nth_error fs i = Some (num, KRep max, EScalar sc) -> nth_error vs i = Some (SvR old) ->
  varint32 tg (num * 8 + wt_code LENDEL) -> varint32 l n -> spans n (q ++ r) tail -> packed_reads sc q zs ->
  (zlen old + zlen zs <= max /\ scalar_fails sc r e rest /\ e <> EndOfBuffer)
  \/ (zlen old + zlen zs = max /\ e = ArrayFull /\ exists c z, r = c ++ rest /\ scalar_reads sc c z) ->
  decodes t v (pre ++ tg ++ l ++ (q ++ r) ++ tail) e (SvM (upd i (SvR (old ++ map SvZ zs)) vs) ovs) (rest ++ tail).
Proof. exact packed_refused. Qed.
Print Assumptions C73_packed_partial.

Example C73_partial_applies :
  decodes Mixed mixed_v ([] ++ [42] ++ [255]) EndOfBuffer (SvM mixed_vs mixed_ovs) []
  /\ decodes Mixed mixed_v ([] ++ [29] ++ [1]) InvalidWiretype (SvM mixed_vs mixed_ovs) [1]
  /\ decodes Mixed mixed_v ([] ++ [34] ++ [4] ++ ([1; 2; 3] ++ [4]) ++ [9]) ArrayFull
       (SvM (upd 3 (SvR [SvZ 1; SvZ 2; SvZ 3]) mixed_vs) mixed_ovs) ([] ++ [9])
  /\ let v := VM [] [VS 0; VS 0; VR 2 [VB 1 [97; 0; 0; 0]; VB 1 [98; 0; 0; 0]]; VR 0 [VS 0; VS 0; VS 0];
                     VR 0 [default_value Inner; default_value Inner]; VS 0] [(0, VIndet)] in
     decodes Mixed v ([] ++ [26] ++ [1; 99]) ArrayFull (view Mixed v) [1; 99].
Proof.
  split; [|split; [|split]].
  - refine (C73_message_length_partial mm mo mixed_v [] mixed_vs mixed_ovs 4 5 2 inner_fields [] [] [42] [255] EndOfBuffer [] Mixed_ok mixed_v_wt mixed_v_clean
      m_start eq_refl eq_refl _ _ _); [cbn; lia|v32|apply varint_cut; [cbn; lia|repeat constructor; lia]].
  - refine (C73_wiretype_partial mm mo mixed_v [] mixed_vs mixed_ovs 2 3 2 (EBytes true 4) [SvB [97; 98]] [29] FIXED32 [1] Mixed_ok mixed_v_wt mixed_v_clean
      m_start eq_refl eq_refl _ _); [v32|discriminate].
  - assert (H1 : forall b, 0 <= b < 128 -> scalar_reads UInt32 [b] (varint_value [b] mod 2 ^ 32)).
    { intros b Hb. apply scalar_reads_dec. split; [exists [], b; split; [reflexivity|]; split; [cbn; lia|]; split; [constructor|exact Hb]|reflexivity]. }
    refine (C73_packed_partial mm mo mixed_v [] mixed_vs mixed_ovs 3 4 3 UInt32 [] [34] [4] 4 [1; 2; 3] [1; 2; 3] [4] ArrayFull [] [9] Mixed_ok mixed_v_wt mixed_v_clean
      m_start eq_refl eq_refl _ _ _ _ _); [v32|v32|left; reflexivity| |].
    + refine (packed_reads_cons _ [1] 1 [2; 3] [2; 3] (H1 1 ltac:(lia)) (packed_reads_cons _ [2] 2 [3] [3] (H1 2 ltac:(lia)) (packed_reads_cons _ [3] 3 [] [] (H1 3 ltac:(lia)) (packed_reads_nil _)))).
    + right. split; [reflexivity|]. split; [reflexivity|]. exists [4], 4. split; [reflexivity|exact (H1 4 ltac:(lia))].
  - cbn zeta. set (v := VM _ _ _). assert (Hv : view Mixed v = SvM [SvZ 0; SvZ 0; SvR [SvB [97]; SvB [98]]; SvR []; SvR []; SvZ 0] [(0, SvNone)]) by reflexivity.
    rewrite Hv. refine (C73_full_partial mm mo v [] [SvZ 0; SvZ 0; SvR [SvB [97]; SvB [98]]; SvR []; SvR []; SvZ 0] [(0, SvNone)] 2 3 2 (EBytes true 4) [SvB [97]; SvB [98]] [26] [1; 99] Mixed_ok _ _ _ eq_refl eq_refl eq_refl eq_refl _); [| | |v32].
    + cbn. unfold is_byte, is_u32. repeat split; try (vm_compute; congruence); try lia; constructor.
    + cbn. repeat split; try (vm_compute; congruence).
    + fold Mixed. rewrite Hv. apply mdec_nil.
Qed.
