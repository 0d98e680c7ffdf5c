(** * Properties: negative zeros, C strings, strings, varints and negative integers in every object and position.

    [decodes], [pre] and [SvM vs ovs]: see PropertiesMalformed.v. The type Mixed of the examples is in
    LawSamples.v. *)
From Verif Require Import Base Buffers Schema Message Api Spec SpecApi Contracts BufferProofs Samples DecodeSamples
  SpecRead SpecMalformed MalformedSamples LawSamples ValueLaws Fields ConfinedLaws CutProofs.

Local Notation mm := mixed_fields.
Local Notation mo := mixed_oneofs.
Local Notation m_start := (mdec_nil mixed_fields mixed_oneofs mixed_vs mixed_ovs).

(** C21 is false for every object that holds a negative zero in a plain field, at any depth: the round trip
    succeeds and changes the object. [no_neg_zero] (Spec.v): no plain float or double field holds -0.0. *)
Theorem C21_always_lost_refuted : forall fs os v v0, let t := EMsg fs os in
  desc_ok t -> wt t v -> zlen (enc t (view t v)) < 2 ^ 32 -> ~ no_neg_zero t (view t v) ->
  v0 = default_value t \/ (exists w, wt t w /\ clear t w = Done v0) ->
  forall cap b c n b', wfix_rel cap b c (Some n) ->
  serialize t v _ (wfix_ops cap) b = Done (NoErrors, b') ->
  exists bytes, wfix_content b' = wfix_content b ++ bytes /\
  forall S (R : rops S) rel, reader_ok R rel -> forall s, rel s bytes ->
  forall fuel, (length bytes < fuel)%nat ->
  exists v' s', deserialize fuel t S R v0 s = Done (NoErrors, v', s') /\ view t v' <> view t v.
Proof. exact neg_zero_lost. Qed.
Print Assumptions C21_always_lost_refuted.

Example C21_always_lost_applies : desc_ok Mixed /\ wt Mixed mixed_v /\ zlen (enc Mixed (view Mixed mixed_v)) < 2 ^ 32
  /\ ~ no_neg_zero Mixed (view Mixed mixed_v)
  /\ wfix_rel 40 (wfix_init 40) [] (Some 40)
  /\ exists b', serialize Mixed mixed_v _ (wfix_ops 40) (wfix_init 40) = Done (NoErrors, b').
Proof.
  split; [exact Mixed_ok|]. split; [exact mixed_v_wt|]. split; [vm_compute; reflexivity|]. split.
  - intros [[H _] _]. cbn in H. discriminate H. reflexivity.
  - split; [exact (wfix_init_rel 40 ltac:(lia))|]. eexists. vm_compute. reflexivity.
Qed.

(** C31, exactly: the pointer shows the stored string if and only if the byte behind it is 0. *)
Theorem C31_exactly_partial : forall max v bs, wt (EBytes true max) v -> view (EBytes true max) v = SvB bs -> ~ In 0 bs ->
  match v with
  | VB _ data => (string_c_str v = Done bs <-> nth_error data (length bs) = Some 0)
  | _ => False
  end.
Proof. exact cstr_exactly. Qed.
Print Assumptions C31_exactly_partial.

(** C31 is false whenever the array is full: the reader of the C string leaves the array. *)
Theorem C31_full_refuted : forall max v bs, wt (EBytes true max) v -> view (EBytes true max) v = SvB bs ->
  ~ In 0 bs -> zlen bs = max -> string_c_str v = UB.
Proof. exact cstr_full. Qed.
Print Assumptions C31_full_refuted.

(** C31 is false whenever set(ptr, len) stores fewer characters than are there: the accessor goes on with the rest
    of the old string (and then with what is behind it, or out of the array). *)
Theorem C31_shorter_refuted : forall max v old src len fuel, let t := EBytes true max in
  capacity_ok max -> wt t v -> view t v = SvB old -> ~ In 0 old ->
  Forall is_byte src -> ~ In 0 src -> 0 <= len <= zlen src -> len < zlen old ->
  exists v', run_op fuel (OpBytesSet src len) (OElem t) v = Done (NoErrors, v')
    /\ view t v' = SvB (firstn (Z.to_nat len) src)
    /\ (string_c_str v' = UB
        \/ exists more, string_c_str v' = Done (firstn (Z.to_nat len) src ++ skipn (Z.to_nat len) old ++ more)).
Proof. exact cstr_shorter. Qed.
Print Assumptions C31_shorter_refuted.

(** What holds of set(ptr, len): on a new or cleared field the two agree, if the string is shorter than the
    array. *)
Theorem C31_set_new_partial : forall max v src len fuel, let t := EBytes true max in
  capacity_ok max -> v = construct (OElem t) \/ (exists w, wt t w /\ clear t w = Done v) ->
  Forall is_byte src -> ~ In 0 (firstn (Z.to_nat len) src) -> 0 <= len <= zlen src -> len < max ->
  exists v', run_op fuel (OpBytesSet src len) (OElem t) v = Done (NoErrors, v')
    /\ view t v' = SvB (firstn (Z.to_nat len) src) /\ string_c_str v' = Done (firstn (Z.to_nat len) src).
Proof. exact cstr_first. Qed.
Print Assumptions C31_set_new_partial.

Example C31_laws_apply :
  (let v := VB 3 [97; 98; 99; 0; 120] in wt (EBytes true 5) v /\ view (EBytes true 5) v = SvB [97; 98; 99]
   /\ string_c_str v = Done [97; 98; 99]
   /\ exists v', run_op 0 (OpBytesSet [120; 121] 1) (OElem (EBytes true 5)) v = Done (NoErrors, v')
        /\ string_c_str v' = Done [120; 98; 99])
  /\ (let v := VB 5 [97; 98; 99; 100; 101] in wt (EBytes true 5) v /\ view (EBytes true 5) v = SvB [97; 98; 99; 100; 101]
      /\ zlen [97; 98; 99; 100; 101] = 5)
  /\ exists v', run_op 0 (OpBytesSet [120; 121] 1) (OElem (EBytes true 5)) (construct (OElem (EBytes true 5))) = Done (NoErrors, v')
       /\ string_c_str v' = Done [120].
Proof.
  split; [|split].
  - cbn zeta. split; [cbn; unfold is_byte; repeat split; lia|]. split; [reflexivity|]. split; [reflexivity|].
    eexists. split; vm_compute; reflexivity.
  - cbn zeta. split; [cbn; unfold is_byte; repeat split; lia|]. split; reflexivity.
  - eexists. split; vm_compute; reflexivity.
Qed.

(** C33 for a string or bytes member of a oneof: decoded in full, whatever the oneof held before ... *)
Theorem C33_oneof_exact : forall fs os v pre vs ovs j ms num st max o tg l p post new, let t := EMsg fs os in
  desc_ok t -> wt t v -> clean t v -> mdec fs os (view t v) pre (SvM vs ovs) ->
  nth_error os j = Some ms -> lookup ms num = Some (EBytes st max) -> nth_error ovs j = Some o ->
  varint32 tg (num * 8 + wt_code LENDEL) -> varint32 l (zlen p) -> zlen p <= max ->
  mdec fs os (SvM vs (upd j (num, SvSome (SvB p)) ovs)) post new ->
  decodes t v (pre ++ tg ++ l ++ p ++ post) NoErrors new [].
Proof. exact string_exact_oneof. Qed.
Print Assumptions C33_oneof_exact.

(** ... or refused with the same errors; then no member of the oneof is set (C38). *)
Theorem C33_oneof_refused : forall fs os v pre vs ovs j ms num st max o tg l n p, let t := EMsg fs os in
  desc_ok t -> wt t v -> clean t v -> mdec fs os (view t v) pre (SvM vs ovs) ->
  nth_error os j = Some ms -> lookup ms num = Some (EBytes st max) -> nth_error ovs j = Some o ->
  varint32 tg (num * 8 + wt_code LENDEL) -> varint32 l n ->
  (max < n -> decodes t v (pre ++ tg ++ l ++ p) ArrayFull (SvM vs (upd j (0, SvNone) ovs)) p)
  /\ (zlen p < n <= max -> decodes t v (pre ++ tg ++ l ++ p) EndOfBuffer (SvM vs (upd j (0, SvNone) ovs)) []).
Proof. exact string_refused_oneof. Qed.
Print Assumptions C33_oneof_refused.

(** C33 for an element of a repeated field with room for one more (refused elements: C73). *)
Theorem C33_element_exact : forall fs os v pre vs ovs i num cnt st max old tg l p post new, let t := EMsg fs os in
  desc_ok t -> wt t v -> clean t v -> mdec fs os (view t v) pre (SvM vs ovs) ->
  nth_error fs i = Some (num, KRep cnt, EBytes st max) -> nth_error vs i = Some (SvR old) -> zlen old < cnt ->
  varint32 tg (num * 8 + wt_code LENDEL) -> varint32 l (zlen p) -> zlen p <= max ->
  mdec fs os (SvM (upd i (SvR (old ++ [SvB p])) vs) ovs) post new ->
  decodes t v (pre ++ tg ++ l ++ p ++ post) NoErrors new [].
Proof. exact string_exact_rep. Qed.
Print Assumptions C33_element_exact.

Example C33_positions_apply :
  decodes Mixed mixed_v ([] ++ [50] ++ [4] ++ [1; 2; 3; 4] ++ []) NoErrors (SvM mixed_vs [(6, SvSome (SvB [1; 2; 3; 4]))]) []
  /\ decodes Mixed mixed_v ([] ++ [50] ++ [5] ++ [1; 2]) ArrayFull (SvM mixed_vs [(0, SvNone)]) [1; 2]
  /\ decodes Mixed mixed_v ([] ++ [50] ++ [3] ++ [1; 2]) EndOfBuffer (SvM mixed_vs [(0, SvNone)]) []
  /\ decodes Mixed mixed_v ([] ++ [26] ++ [4] ++ [1; 2; 3; 4] ++ []) NoErrors
       (SvM (upd 2 (SvR [SvB [97; 98]; SvB [1; 2; 3; 4]]) mixed_vs) mixed_ovs) [].
Proof.
  split; [|split; [|split]].
  - refine (C33_oneof_exact mm mo mixed_v [] mixed_vs mixed_ovs 0 _ 6 true 4 _ [50] [4] _ [] _ Mixed_ok mixed_v_wt mixed_v_clean
      m_start eq_refl eq_refl eq_refl _ _ _ (mdec_nil _ _ _ _)); [v32|v32|cbn; lia].
  - refine (proj1 (C33_oneof_refused mm mo mixed_v [] mixed_vs mixed_ovs 0 _ 6 true 4 _ [50] [5] 5 [1; 2] Mixed_ok mixed_v_wt mixed_v_clean
      m_start eq_refl eq_refl eq_refl _ _) _); [v32|v32|lia].
  - refine (proj2 (C33_oneof_refused mm mo mixed_v [] mixed_vs mixed_ovs 0 _ 6 true 4 _ [50] [3] 3 [1; 2] Mixed_ok mixed_v_wt mixed_v_clean
      m_start eq_refl eq_refl eq_refl _ _) _); [v32|v32|cbn; lia].
  - refine (C33_element_exact mm mo mixed_v [] mixed_vs mixed_ovs 2 3 2 true 4 [SvB [97; 98]] [26] [4] _ [] _ Mixed_ok mixed_v_wt mixed_v_clean
      m_start eq_refl eq_refl _ _ _ _ (mdec_nil _ _ _ _)); [cbn; lia|v32|v32|cbn; lia].
Qed.

(** C51 is false for members of oneofs and for the elements of packed fields too: of a packed field the elements
    before the refused one are there. *)
Theorem C51_oneof_refuted : forall fs os v pre vs ovs j ms num sc o tg c rest, let t := EMsg fs os in
  desc_ok t -> wt t v -> clean t v -> mdec fs os (view t v) pre (SvM vs ovs) ->
  nth_error os j = Some ms -> lookup ms num = Some (EScalar sc) -> nth_error ovs j = Some o ->
  sc = UInt32 \/ sc = Enumeration ->
  varint32 tg (num * 8 + wt_code VARINT) -> varint_wf 10 c -> (5 < length c)%nat ->
  exists rest', decodes t v (pre ++ tg ++ c ++ rest) OverlongVarint (SvM vs (upd j (0, SvNone) ovs)) rest'.
Proof. exact long_refused_oneof. Qed.
Print Assumptions C51_oneof_refuted.

Theorem C51_packed_refuted : forall fs os v pre vs ovs i num max sc old tg l q zs c r rest, let t := EMsg fs os in
  desc_ok t -> wt t v -> clean t v -> mdec fs os (view t v) pre (SvM vs ovs) ->
  nth_error fs i = Some (num, KRep max, EScalar sc) -> nth_error vs i = Some (SvR old) ->
  sc = UInt32 \/ sc = Enumeration ->
  varint32 tg (num * 8 + wt_code LENDEL) -> varint32 l (zlen (q ++ c ++ r)) ->
  packed_dec sc q zs -> zlen old + zlen zs <= max -> varint_wf 10 c -> (5 < length c)%nat ->
  exists rest', decodes t v (pre ++ tg ++ l ++ (q ++ c ++ r) ++ rest) OverlongVarint
    (SvM (upd i (SvR (old ++ map SvZ zs)) vs) ovs) rest'.
Proof. exact long_refused_packed. Qed.
Print Assumptions C51_packed_refuted.

(** -1 as another implementation writes it. *)
Local Notation minus_one := [255; 255; 255; 255; 255; 255; 255; 255; 255; 1].

Example C51_positions_apply :
  (exists rest', decodes Mixed mixed_v ([] ++ [56] ++ minus_one ++ []) OverlongVarint (SvM mixed_vs [(0, SvNone)]) rest')
  /\ exists rest', decodes Mixed mixed_v ([] ++ [34] ++ [11] ++ ([5] ++ minus_one ++ []) ++ []) OverlongVarint
       (SvM (upd 3 (SvR [SvZ 5]) mixed_vs) mixed_ovs) rest'.
Proof.
  assert (Hwf : varint_wf 10 minus_one).
  { exists [255; 255; 255; 255; 255; 255; 255; 255; 255], 1. split; [reflexivity|]. split; [cbn; lia|]. split; [repeat constructor; lia|lia]. }
  split.
  - refine (C51_oneof_refuted mm mo mixed_v [] mixed_vs mixed_ovs 0 _ 7 UInt32 _ [56] minus_one [] Mixed_ok mixed_v_wt mixed_v_clean
      m_start eq_refl eq_refl eq_refl _ _ Hwf _); [left; reflexivity|v32|cbn; lia].
  - refine (C51_packed_refuted mm mo mixed_v [] mixed_vs mixed_ovs 3 4 3 UInt32 [] [34] [11] [5] [5] minus_one [] [] Mixed_ok mixed_v_wt mixed_v_clean
      m_start eq_refl eq_refl _ _ _ _ _ Hwf _); [left; reflexivity|v32|v32| |cbn; lia|cbn; lia].
    refine (packed_cons _ [5] 5 [] [] _ (packed_nil _)). split; [exists [], 5; split; [reflexivity|]; split; [cbn; lia|]; split; [constructor|lia]|reflexivity].
Qed.

(** C53 is false for every plain and every present optional int32 field of every message: after the encoding of
    the fields before it come the tag and five bytes, where protobuf writes ten. *)
Theorem C53_any_field_refuted : forall fs os v vs ovs i num k z, let t := EMsg fs os in
  wt t v -> desc_ok t -> zlen (enc t (view t v)) < 2 ^ 32 -> view t v = SvM vs ovs ->
  nth_error fs i = Some (num, k, EScalar Int32) -> nth_error vs i = Some (stored k (SvZ z)) ->
  k = KPlain \/ k = KOpt -> - 2 ^ 31 <= z < 0 ->
  forall cap b c n, wfix_rel cap b c (Some n) -> forall b',
  serialize t v wfix (wfix_ops cap) b = Done (NoErrors, b') ->
  (exists post, wfix_content b' = wfix_content b ++ enc (EMsg (firstn i fs) []) (SvM (firstn i vs) [])
     ++ tag num VARINT ++ varint (z + 2 ^ 32) ++ post)
  /\ zlen (varint (z + 2 ^ 32)) = 5 /\ zlen (varint (z + 2 ^ 64)) = 10.
Proof. exact int32_negative_anywhere. Qed.
Print Assumptions C53_any_field_refuted.

(** Other values are written as protobuf writes them. *)
Theorem C53_any_field_partial : forall fs os v vs ovs i num k z, let t := EMsg fs os in
  wt t v -> desc_ok t -> zlen (enc t (view t v)) < 2 ^ 32 -> view t v = SvM vs ovs ->
  nth_error fs i = Some (num, k, EScalar Int32) -> nth_error vs i = Some (stored k (SvZ z)) ->
  (k = KPlain /\ z <> 0) \/ k = KOpt -> 0 <= z < 2 ^ 31 ->
  forall cap b c n, wfix_rel cap b c (Some n) -> forall b',
  serialize t v wfix (wfix_ops cap) b = Done (NoErrors, b') ->
  exists post, wfix_content b' = wfix_content b ++ enc (EMsg (firstn i fs) []) (SvM (firstn i vs) [])
    ++ tag num VARINT ++ varint z ++ post.
Proof. exact int32_nonnegative_anywhere. Qed.
Print Assumptions C53_any_field_partial.

Example C53_any_field_applies : wt Mixed mixed_v /\ desc_ok Mixed /\ view Mixed mixed_v = SvM mixed_vs mixed_ovs
  /\ nth_error mm 5 = Some (8, KPlain, EScalar Int32) /\ nth_error mixed_vs 5 = Some (stored KPlain (SvZ (-3)))
  /\ enc (EMsg (firstn 5 mm) []) (SvM (firstn 5 mixed_vs) []) = [16; 254; 255; 255; 255; 15; 26; 2; 97; 98]
  /\ (exists b', serialize Mixed mixed_v _ (wfix_ops 40) (wfix_init 40) = Done (NoErrors, b')
        /\ wfix_content b' = [16; 254; 255; 255; 255; 15; 26; 2; 97; 98] ++ [64] ++ [253; 255; 255; 255; 15] ++ [56; 9]).
Proof.
  split; [exact mixed_v_wt|]. split; [exact Mixed_ok|]. split; [reflexivity|]. split; [reflexivity|]. split; [reflexivity|].
  split; [vm_compute; reflexivity|]. eexists. split; vm_compute; reflexivity.
Qed.

(** C46 is false for every nested message that announces more bytes than there are and contains, after any fields
    [p], an unknown record that runs to the announced end or beyond: decoding it succeeds and leaves the [q] bytes
    of that record unread, which the caller then reads as fields of the enclosing message. *)
Theorem C46_cut_refuted : forall f o v l n p vs ovs num tg' l' n' q cap b, let t := EMsg f o in
  desc_ok t -> wt t v -> clean t v -> mdec f o (view t v) p (SvM vs ovs) ->
  ~ In num (field_numbers f o) -> 0 < num -> varint32 tg' (num * 8 + wt_code LENDEL) -> varint32 l' n' ->
  q <> [] -> varint32 l n -> zlen (p ++ tg' ++ l' ++ q) < n <= zlen (p ++ tg' ++ l') + n' ->
  rfix_rel cap b (l ++ p ++ tg' ++ l' ++ q) -> cap <= 2 ^ 31 ->
  forall fuel, (length (p ++ tg' ++ l' ++ q) < fuel)%nat ->
  exists v' b', elem_deserialize_check_type t (deserialize fuel t) LENDEL rfix (rfix_ops cap) v b = Done (NoErrors, v', b')
    /\ view t v' = SvM vs ovs /\ rfix_rel cap b' q.
Proof. exact cut_not_confined. Qed.
Print Assumptions C46_cut_refuted.

(** An Inner of nine bytes of which seven are there: a = 1 and field 4, announcing 200 bytes. *)
Example C46_cut_applies : let bytes := [9] ++ [8; 1] ++ [34] ++ [200; 1] ++ [8; 7] in
  exists v' b', elem_deserialize_check_type Inner (deserialize 10 Inner) LENDEL rfix (rfix_ops 8) (default_value Inner) (rfix_of bytes) = Done (NoErrors, v', b')
    /\ view Inner v' = inner_s 1 [] /\ rfix_rel 8 b' [8; 7].
Proof.
  refine (C46_cut_refuted inner_fields [] (default_value Inner) [9] 9 [8; 1] _ _ 4 [34] [200; 1] 200 [8; 7] 8 _ Inner_ok _ _
    (sample_inner 0 1 _) _ _ _ _ _ _ _ _ _ 10 _);
    [vm_compute; intuition congruence|vm_compute; intuition congruence|lia|cbn; intuition lia|lia|v32|v32|discriminate|v32|vm_compute; split; congruence| |lia|cbn; lia].
  apply (rfix_of_rel ([9] ++ [8; 1] ++ [34] ++ [200; 1] ++ [8; 7])); [reflexivity|repeat constructor; lia].
Qed.

(** What is left of C46 when the buffer ends before the announced [n] bytes: whatever the bytes [p] that are there, decoding
    comes to an end, takes a prefix of them and leaves the others; a string or bytes value is refused. Only a message can be
    taken for complete (the theorem above). *)
Theorem C46_cut_partial : forall cap, cap < 2 ^ 31 -> forall fuel t v b l n p,
  desc_ok t -> is_packed t = false -> wt t v -> varint32 l n -> zlen p < n -> rfix_rel cap b (l ++ p) -> (length p < fuel)%nat ->
  exists e v' b' used rest, elem_deserialize_check_type t (deserialize fuel t) LENDEL rfix (rfix_ops cap) v b = Done (e, v', b')
    /\ p = used ++ rest /\ rfix_rel cap b' rest /\ (e = NoErrors -> exists fs os, t = EMsg fs os).
Proof. exact elem_cut. Qed.
Print Assumptions C46_cut_partial.

(** The same for one record of a repeated field. Packed numbers that are taken for complete leave nothing. *)
Theorem C46_cut_repeated_partial : forall cap, cap < 2 ^ 31 -> forall fuel t max v b l n p,
  desc_ok t -> capacity_ok max -> wt_field (KRep max) (wt t) v -> varint32 l n -> zlen p < n -> rfix_rel cap b (l ++ p) -> (length p < fuel)%nat ->
  exists e v' b', rep_deserialize_check_type fuel t (deserialize fuel t) LENDEL rfix (rfix_ops cap) v b = Done (e, v', b')
    /\ ((exists used rest, p = used ++ rest /\ rfix_rel cap b' rest
          /\ (e = NoErrors -> match t with EScalar _ => rest = [] | EBytes _ _ => False | EMsg _ _ => True end))
        \/ (e = ArrayFull /\ b' = b)).
Proof. exact rep_cut. Qed.
Print Assumptions C46_cut_repeated_partial.

(** Three numbers, of which two are there, are taken for complete; a string of three bytes with two is refused. *)
Example C46_cut_partial_applies : let b := rfix_of ([3] ++ [5; 6]) in rfix_rel 3 b ([3] ++ [5; 6]) /\ varint32 [3] 3 /\ zlen [5; 6] < 3
  /\ desc_ok (EBytes true 9) /\ wt (EBytes true 9) (default_value (EBytes true 9))
  /\ (exists v' b', elem_deserialize_check_type (EBytes true 9) (deserialize 5 (EBytes true 9)) LENDEL rfix (rfix_ops 3) (default_value (EBytes true 9)) b
        = Done (EndOfBuffer, v', b'))
  /\ desc_ok (EScalar UInt32) /\ capacity_ok 2 /\ wt_field (KRep 2) (wt (EScalar UInt32)) (VR 0 [VS 0; VS 0])
  /\ (exists b', rep_deserialize_check_type 5 (EScalar UInt32) (deserialize 5 (EScalar UInt32)) LENDEL rfix (rfix_ops 3) (VR 0 [VS 0; VS 0]) b
        = Done (NoErrors, VR 2 [VS 5; VS 6], b') /\ rfix_rel 3 b' []).
Proof.
  split; [apply (rfix_of_rel ([3] ++ [5; 6])); [reflexivity|repeat constructor; lia]|]. split; [v32|]. split; [reflexivity|].
  split; [vm_compute; intuition congruence|]. split; [vm_compute; intuition congruence|]. split; [do 2 eexists; vm_compute; reflexivity|].
  split; [vm_compute; intuition congruence|]. split; [vm_compute; intuition congruence|]. split; [vm_compute; intuition congruence|].
  eexists. split; [vm_compute; reflexivity|]. unfold rfix_rel. cbn. repeat split; try lia. repeat constructor; lia.
Qed.
