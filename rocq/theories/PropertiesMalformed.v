(** * Properties: malformed, truncated and unusual input.

    [decodes t v bs e new rest] (SpecMalformed.v): decoding [bs] into [v] from any read buffer returns
    [e], leaves [rest] unread and a valid object whose getters show [new]. [pre] is always an arbitrary
    well-formed encoding in front of the record in question, after which the getters show
    [SvM vs ovs]. *)
From Verif Require Import Base Buffers Schema Message Spec Contracts BufferProofs Samples DecodeSamples
  SpecRead SpecMalformed MalformedSamples MalformedProps ReadTotal Wire Api Tables AnyBuffer.

Local Notation vs0 := [SvZ 300; SvB []; SvR [SvZ 1; SvZ 300]; SvR []; SvNone; inner_s 0 []].
Local Notation ovs0 := [(0, SvNone)].
Local Notation d0 := (default_value Outer).

(** C25 is false: what stands between the tags of an unknown group is decoded as if it stood outside. *)
Theorem C25_group_refuted : forall fs os v pre vs ovs num tg inner vs' ovs' tg' post new, let t := EMsg fs os in
  desc_ok t -> wt t v -> clean t v -> mdec fs os (view t v) pre (SvM vs ovs) ->
  ~ In num (field_numbers fs os) -> 0 < num ->
  varint32 tg (num * 8 + wt_code STARTGROUP) -> mdec fs os (SvM vs ovs) inner (SvM vs' ovs') ->
  varint32 tg' (num * 8 + wt_code ENDGROUP) -> mdec fs os (SvM vs' ovs') post new ->
  decodes t v (pre ++ tg ++ inner ++ tg' ++ post) NoErrors new [].
Proof. exact group_leaks. Qed.
Print Assumptions C25_group_refuted.

(** Unknown group 99 with a record of field 6 inside: the field is set. *)
Example C25_refuted_applies :
  decodes Outer d0 (sample_a ++ [155; 6] ++ r_n ++ [156; 6] ++ []) NoErrors
    (outer_s 300 [1; 300] (inner_s 1 [120]) (0, SvNone)) [].
Proof.
  refine (C25_group_refuted od oo d0 sample_a vs0 ovs0 99 _ _ (upd 5 (inner_s 1 [120]) vs0) ovs0 _ [] _ Outer_ok outer_default_wt outer_default_clean
    sample_a_ok _ _ _ _ _ (mdec_nil _ _ _ _)); [cbn; intuition lia|lia|v32| |v32].
  exact (mdec_cons _ _ _ r_n _ [] _ (sample_n _) (mdec_nil _ _ _ _)).
Qed.

(** What holds of C25: groups that contain only records with unknown numbers, nested to any depth,
    change nothing. *)
Theorem C25_group_partial : forall fs os v pre vs ovs us post new, let t := EMsg fs os in
  desc_ok t -> wt t v -> clean t v -> mdec fs os (view t v) pre (SvM vs ovs) ->
  unknown_groups fs os us -> mdec fs os (SvM vs ovs) post new ->
  decodes t v (pre ++ us ++ post) NoErrors new [].
Proof. exact groups_skipped. Qed.
Print Assumptions C25_group_partial.

Example C25_partial_applies :
  decodes Outer d0 (sample_a ++ ([155; 6] ++ ([152; 6] ++ [42]) ++ [156; 6] ++ []) ++ sample_b) NoErrors sample_new [].
Proof.
  refine (C25_group_partial od oo d0 sample_a vs0 ovs0 _ sample_b _ Outer_ok outer_default_wt outer_default_clean sample_a_ok _ sample_b_ok).
  apply (ug_group od oo 99 [155; 6] (([152; 6] ++ [42]) ++ []) [156; 6] []); [cbn; intuition lia|lia|v32| |v32|constructor].
  apply (ug_record od oo 99 VARINT [152; 6] [42] []); [cbn; intuition lia|lia|v32|constructor; wf|constructor].
Qed.

(** C26 is false: over a fixed-size buffer the payload [p] of an unknown length-delimited record that
    announces more than is there is read as records of the message, with whatever result that has
    ([mread], SpecRead.v): if it happens to be well formed, decoding succeeds. *)
Theorem C26_truncated_unknown_refuted : forall fs os v pre vs ovs num tg l n p e new rest, let t := EMsg fs os in
  let bytes := pre ++ tg ++ l ++ p in
  desc_ok t -> wt t v -> clean t v -> mdec fs os (view t v) pre (SvM vs ovs) ->
  ~ In num (field_numbers fs os) -> 0 < num ->
  varint32 tg (num * 8 + wt_code LENDEL) -> varint32 l n -> Forall is_byte bytes -> zlen p < n ->
  zlen (pre ++ tg ++ l) + n < 2 ^ 32 ->
  mread true false fs os (SvM vs ovs) p e new rest ->
  forall fuel, (length bytes < fuel)%nat -> exists v' s',
  deserialize fuel t rfix (rfix_ops (zlen bytes)) v (rfix_of bytes) = Done (e, v', s')
  /\ wt t v' /\ clean t v' /\ view t v' = new.
Proof. exact cut_unknown. Qed.
Print Assumptions C26_truncated_unknown_refuted.

(** Unknown field 100 announcing 200 bytes of which 7 are there; these 7 set field 6. *)
Example C26_refuted_applies : let bytes := sample_a ++ [162; 6] ++ [200; 1] ++ r_n in exists v' s',
  deserialize 100 Outer rfix (rfix_ops (zlen bytes)) d0 (rfix_of bytes) = Done (NoErrors, v', s')
  /\ wt Outer v' /\ clean Outer v' /\ view Outer v' = outer_s 300 [1; 300] (inner_s 1 [120]) (0, SvNone).
Proof.
  refine (C26_truncated_unknown_refuted od oo d0 sample_a vs0 ovs0 100 _ _ 200 _ NoErrors _ [] Outer_ok outer_default_wt outer_default_clean
    sample_a_ok _ _ _ _ _ _ _ _ 100 _); [cbn; intuition lia|lia|v32|v32|repeat constructor; unfold is_byte; lia|vm_compute; reflexivity|vm_compute; reflexivity| |cbn; lia].
  apply (proj1 (proj2 (dec_reads true))). exact (mdec_cons _ _ _ r_n _ [] _ (sample_n _) (mdec_nil _ _ _ _)).
Qed.

(** What holds of C26: unknown fields of the other wire types that are cut short, and a length that is
    itself cut short or overlong, are reported ([skip_fails], SpecRead.v), whatever the buffer. *)
Theorem C26_other_wiretypes_partial : forall fs os v pre vs ovs num tg w bs e rest, let t := EMsg fs os in
  desc_ok t -> wt t v -> clean t v -> mdec fs os (view t v) pre (SvM vs ovs) ->
  ~ In num (field_numbers fs os) -> 0 < num ->
  varint32 tg (num * 8 + wt_code w) -> skip_fails w bs e rest ->
  decodes t v (pre ++ tg ++ bs) e (SvM vs ovs) rest.
Proof. exact unknown_cut. Qed.
Print Assumptions C26_other_wiretypes_partial.

Example C26_partial_applies : decodes Outer d0 (sample_a ++ [157; 6] ++ [1; 2; 3]) EndOfBuffer sample_mid [].
Proof.
  refine (C26_other_wiretypes_partial od oo d0 sample_a vs0 ovs0 99 _ FIXED32 _ _ _ Outer_ok outer_default_wt outer_default_clean
    sample_a_ok _ _ _ _); [cbn; intuition lia|lia|v32|constructor; cbn; lia].
Qed.

(** In a nested message that is completely there, a truncated unknown record is skipped up to the end
    of the nested message: its payload is not interpreted, but it is not reported either. *)
Theorem C26_nested_partial : forall fs os v pre vs ovs i num k f o x tg l p tg' num' l' n q x' post new,
  let t := EMsg fs os in let body := p ++ tg' ++ l' ++ q in
  desc_ok t -> wt t v -> clean t v -> mdec fs os (view t v) pre (SvM vs ovs) ->
  nth_error fs i = Some (num, k, EMsg f o) -> k = KPlain \/ k = KOpt -> nth_error vs i = Some x ->
  varint32 tg (num * 8 + wt_code LENDEL) -> varint32 l (zlen body) ->
  mdec f o (field_start k (EMsg f o) x) p x' ->
  ~ In num' (field_numbers f o) -> 0 < num' -> varint32 tg' (num' * 8 + wt_code LENDEL) ->
  varint32 l' n -> zlen q < n ->
  mdec fs os (SvM (upd i (stored k x') vs) ovs) post new ->
  decodes t v (pre ++ tg ++ l ++ body ++ post) NoErrors new [].
Proof. exact nested_unknown_cut. Qed.
Print Assumptions C26_nested_partial.

(** n.a = 1, then unknown field 4 of n announcing 200 bytes of which [8; 7] (a = 7) are there. *)
Example C26_nested_applies :
  decodes Outer d0 (sample_a ++ [50] ++ [7] ++ ([8; 1] ++ [34] ++ [200; 1] ++ [8; 7]) ++ []) NoErrors
    (outer_s 300 [1; 300] (inner_s 1 []) (0, SvNone)) [].
Proof.
  refine (C26_nested_partial od oo d0 sample_a vs0 ovs0 5 6 KPlain inner_fields [] (inner_s 0 []) [50] [7] [8; 1] [34] 4 [200; 1] 200 [8; 7]
    (inner_s 1 []) [] _ Outer_ok outer_default_wt outer_default_clean sample_a_ok _ _ _ _ _ _ _ _ _ _ _ (mdec_nil _ _ _ _));
    [reflexivity|left; reflexivity|reflexivity|v32|v32| |cbn; intuition lia|lia|v32|v32|cbn; lia].
  apply (sample_inner 0 1). lia.
Qed.

(** C29 is false: input that ends inside a tag ([c] is the beginning of any tag of more than one
    byte), inside a nested message or inside a packed field is accepted. *)
Theorem C29_tag_refuted : forall fs os v pre vs ovs c, let t := EMsg fs os in
  desc_ok t -> wt t v -> clean t v -> mdec fs os (view t v) pre (SvM vs ovs) ->
  (length c < 5)%nat -> Forall (fun b => 128 <= b < 256) c ->
  decodes t v (pre ++ c) NoErrors (SvM vs ovs) [].
Proof. exact cut_tag. Qed.
Print Assumptions C29_tag_refuted.

(** The first byte of the record r_u. *)
Example C29_tag_applies : decodes Outer d0 (sample_a ++ [136]) NoErrors sample_mid [] /\ exists b, r_u = [136] ++ b.
Proof.
  split; [|eexists; reflexivity].
  refine (C29_tag_refuted od oo d0 sample_a vs0 ovs0 _ Outer_ok outer_default_wt outer_default_clean sample_a_ok _ _); [cbn; lia|].
  repeat constructor; lia.
Qed.

Theorem C29_nested_refuted : forall fs os v pre vs ovs i num k f o x tg l n p x', let t := EMsg fs os in
  desc_ok t -> wt t v -> clean t v -> mdec fs os (view t v) pre (SvM vs ovs) ->
  nth_error fs i = Some (num, k, EMsg f o) -> k = KPlain \/ k = KOpt -> nth_error vs i = Some x ->
  varint32 tg (num * 8 + wt_code LENDEL) -> varint32 l n -> zlen p < n ->
  mdec f o (field_start k (EMsg f o) x) p x' ->
  decodes t v (pre ++ tg ++ l ++ p) NoErrors (SvM (upd i (stored k x') vs) ovs) [].
Proof. exact cut_nested. Qed.
Print Assumptions C29_nested_refuted.

(** The record r_n without its last three bytes. *)
Example C29_nested_applies : decodes Outer d0 (sample_a ++ [50] ++ [5] ++ [8; 1]) NoErrors
    (outer_s 300 [1; 300] (inner_s 1 []) (0, SvNone)) [] /\ exists b, r_n = ([50] ++ [5] ++ [8; 1]) ++ b.
Proof.
  split; [|eexists; reflexivity].
  refine (C29_nested_refuted od oo d0 sample_a vs0 ovs0 5 6 KPlain inner_fields [] (inner_s 0 []) [50] [5] 5 [8; 1] (inner_s 1 [])
    Outer_ok outer_default_wt outer_default_clean sample_a_ok _ _ _ _ _ _ _);
    [reflexivity|left; reflexivity|reflexivity|v32|v32|cbn; lia|apply (sample_inner 0 1); lia].
Qed.

Theorem C29_packed_refuted : forall fs os v pre vs ovs i num max sc old tg l n q zs, let t := EMsg fs os in
  desc_ok t -> wt t v -> clean t v -> mdec fs os (view t v) pre (SvM vs ovs) ->
  nth_error fs i = Some (num, KRep max, EScalar sc) -> nth_error vs i = Some (SvR old) ->
  varint32 tg (num * 8 + wt_code LENDEL) -> varint32 l n -> zlen q < n ->
  packed_dec sc q zs -> zlen old + zlen zs <= max ->
  decodes t v (pre ++ tg ++ l ++ q) NoErrors (SvM (upd i (SvR (old ++ map SvZ zs)) vs) ovs) [].
Proof. exact cut_packed. Qed.
Print Assumptions C29_packed_refuted.

Example C29_packed_applies : decodes Outer d0 (sample_a ++ [26] ++ [3] ++ [7]) NoErrors
    (outer_s 300 [1; 300; 7] (inner_s 0 []) (0, SvNone)) [].
Proof.
  refine (C29_packed_refuted od oo d0 sample_a vs0 ovs0 2 3 4 UInt32 [SvZ 1; SvZ 300] [26] [3] 3 [7] [7]
    Outer_ok outer_default_wt outer_default_clean sample_a_ok _ _ _ _ _ _ _);
    [reflexivity|reflexivity|v32|v32|cbn; lia| |cbn; lia].
  apply (packed_cons UInt32 [7] 7 [] []); [split; [wf|reflexivity]|constructor].
Qed.

(** What holds of C29, for every beginning [a] of a valid encoding: either END_OF_BUFFER is returned,
    or [a] ends at one of the places above ([seam], SpecMalformed.v). Excluded are beginnings that end
    inside an unknown length-delimited record, at the top level or in nested messages that are cut off
    as well ([mover], SpecRead.v); see C26. *)
Theorem C29_prefix_partial : forall fs os v a b new, let t := EMsg fs os in
  desc_ok t -> wt t v -> clean t v -> mdec fs os (view t v) (a ++ b) new -> ~ mover fs os (view t v) a ->
  forall S (R : rops S) rel, reader_ok R rel -> forall s, rel s a -> forall fuel, (length a < fuel)%nat ->
  exists e v' s', deserialize fuel t S R v s = Done (e, v', s') /\ rel s' [] /\ wt t v' /\ clean t v'
    /\ (e = EndOfBuffer \/ (e = NoErrors /\ seam fs os a)).
Proof. exact prefix_detected. Qed.
Print Assumptions C29_prefix_partial.

Example C29_prefix_applies : mdec inner_fields [] (view Inner di) (cut_hello ++ [108; 108; 111]) (inner_s 0 [104; 101; 108; 108; 111])
  /\ ~ mover inner_fields [] (view Inner di) cut_hello
  /\ exists e v' s', deserialize 10 Inner _ lops di cut_hello = Done (e, v', s')
     /\ (e = EndOfBuffer \/ (e = NoErrors /\ seam inner_fields [] cut_hello)).
Proof.
  split; [exact hello_ok|]. split; [exact hello_mover|].
  destruct (C29_prefix_partial inner_fields [] di cut_hello [108; 108; 111] _ Inner_ok inner_default_wt inner_default_clean hello_ok hello_mover
    _ lops lrel lops_ok cut_hello) with (fuel := 10%nat) as (e & v' & s' & H & _ & _ & _ & He); [|cbn; lia|eauto].
  split; [reflexivity|]. repeat constructor; unfold is_byte; lia.
Qed.

(** In particular of every beginning [a] of what serialize() writes, read into an object in its initial
    state; nothing is excluded here. *)
Theorem C29_serialized_partial : forall fs os v v0, let t := EMsg fs os in
  desc_ok t -> wt t v -> zlen (enc t (view t v)) < 2 ^ 32 ->
  wt t v0 -> clean t v0 -> view t v0 = sdefault t ->
  forall cap w c n w', wfix_rel cap w c (Some n) ->
  serialize t v _ (wfix_ops cap) w = Done (NoErrors, w') ->
  exists bytes, wfix_content w' = wfix_content w ++ bytes /\
  forall a b, bytes = a ++ b ->
  forall S (R : rops S) rel, reader_ok R rel -> forall s, rel s a -> forall fuel, (length a < fuel)%nat ->
  exists e v' s', deserialize fuel t S R v0 s = Done (e, v', s') /\ rel s' [] /\ wt t v' /\ clean t v'
    /\ (e = EndOfBuffer \/ (e = NoErrors /\ seam fs os a)).
Proof. exact prefix_serialized. Qed.
Print Assumptions C29_serialized_partial.

Example C29_serialized_applies : desc_ok Outer /\ wt Outer outer_v /\ zlen (enc Outer (view Outer outer_v)) < 2 ^ 32
  /\ wt Outer d0 /\ clean Outer d0 /\ view Outer d0 = sdefault Outer
  /\ wfix_rel 100 (wfix_init 100) [] (Some 100)
  /\ exists w', serialize Outer outer_v _ (wfix_ops 100) (wfix_init 100) = Done (NoErrors, w').
Proof.
  split; [exact Outer_ok|]. split; [exact outer_v_wt|]. split; [vm_compute; reflexivity|]. split; [exact outer_default_wt|].
  split; [exact outer_default_clean|]. split; [reflexivity|]. split; [apply wfix_init_rel; lia|]. eexists. vm_compute. reflexivity.
Qed.

(** For message types without nested messages and packed fields: the beginning ends at a record
    boundary or inside a tag. *)
Theorem C29_flat_partial : forall fs os v a b new, let t := EMsg fs os in
  desc_ok t -> wt t v -> clean t v -> flat fs os -> mdec fs os (view t v) (a ++ b) new ->
  ~ mover fs os (view t v) a ->
  forall S (R : rops S) rel, reader_ok R rel -> forall s, rel s a -> forall fuel, (length a < fuel)%nat ->
  exists e v' s', deserialize fuel t S R v s = Done (e, v', s') /\ rel s' [] /\ wt t v' /\ clean t v'
    /\ (e = EndOfBuffer
        \/ (e = NoErrors /\ exists rs c, a = concat rs ++ c /\ Forall (record fs os) rs
            /\ (length c < 5)%nat /\ Forall (fun x => 128 <= x < 256) c)).
Proof. exact prefix_detected_flat. Qed.
Print Assumptions C29_flat_partial.

Example C29_flat_applies : flat inner_fields [] /\ mdec inner_fields [] (view Inner di) (cut_hello ++ [108; 108; 111]) (inner_s 0 [104; 101; 108; 108; 111])
  /\ ~ mover inner_fields [] (view Inner di) cut_hello.
Proof.
  split; [|split; [exact hello_ok|exact hello_mover]]. intros num k t [(i & Hi)|(_ & j & ms & Hj & _)].
  - destruct i as [|[|[|[|i]]]]; try discriminate; injection Hi as <- <- <-; exact I.
  - destruct j; discriminate.
Qed.

(** C33: a string or bytes field (plain or optional) is decoded in full, or refused. *)
Theorem C33_exact : forall fs os v pre vs ovs i num k st max x tg l p post new, let t := EMsg fs os in
  let ty := EBytes st max in
  desc_ok t -> wt t v -> clean t v -> mdec fs os (view t v) pre (SvM vs ovs) ->
  nth_error fs i = Some (num, k, ty) -> k = KPlain \/ k = KOpt -> nth_error vs i = Some x ->
  varint32 tg (num * 8 + wt_code LENDEL) -> varint32 l (zlen p) -> zlen p <= max ->
  mdec fs os (SvM (upd i (stored k (SvB p)) vs) ovs) post new ->
  decodes t v (pre ++ tg ++ l ++ p ++ post) NoErrors new [].
Proof. exact string_exact. Qed.
Print Assumptions C33_exact.

Example C33_exact_applies : decodes Outer d0 (sample_a ++ [18] ++ [8] ++ [1; 2; 3; 4; 5; 6; 7; 8] ++ []) NoErrors
  (SvM (upd 1 (SvB [1; 2; 3; 4; 5; 6; 7; 8]) vs0) ovs0) [].
Proof.
  refine (C33_exact od oo d0 sample_a vs0 ovs0 1 2 KPlain true 8 (SvB []) [18] [8] _ [] _ Outer_ok outer_default_wt outer_default_clean
    sample_a_ok _ _ _ _ _ _ (mdec_nil _ _ _ _)); [reflexivity|left; reflexivity|reflexivity|v32|v32|cbn; lia].
Qed.

(** Too long: ARRAY_FULL, the old content is kept ([field_start]: of an optional field that was not
    present, the default, which is then shown as present). *)
Theorem C33_too_long : forall fs os v pre vs ovs i num k st max x tg l n rest, let t := EMsg fs os in
  let ty := EBytes st max in
  desc_ok t -> wt t v -> clean t v -> mdec fs os (view t v) pre (SvM vs ovs) ->
  nth_error fs i = Some (num, k, ty) -> k = KPlain \/ k = KOpt -> nth_error vs i = Some x ->
  varint32 tg (num * 8 + wt_code LENDEL) -> varint32 l n -> max < n ->
  decodes t v (pre ++ tg ++ l ++ rest) ArrayFull (SvM (upd i (stored k (field_start k ty x)) vs) ovs) rest.
Proof. exact string_too_long. Qed.
Print Assumptions C33_too_long.

Example C33_too_long_applies : decodes Outer d0 (sample_a ++ [18] ++ [9] ++ [1; 2; 3; 4; 5; 6; 7; 8; 9]) ArrayFull
  sample_mid [1; 2; 3; 4; 5; 6; 7; 8; 9].
Proof.
  refine (C33_too_long od oo d0 sample_a vs0 ovs0 1 2 KPlain true 8 (SvB []) [18] [9] 9 _ Outer_ok outer_default_wt outer_default_clean
    sample_a_ok _ _ _ _ _ _); [reflexivity|left; reflexivity|reflexivity|v32|v32|lia].
Qed.

(** Cut short: END_OF_BUFFER, and the field shows the bytes that were there. *)
Theorem C33_cut : forall fs os v pre vs ovs i num k st max x tg l n p, let t := EMsg fs os in
  let ty := EBytes st max in
  desc_ok t -> wt t v -> clean t v -> mdec fs os (view t v) pre (SvM vs ovs) ->
  nth_error fs i = Some (num, k, ty) -> k = KPlain \/ k = KOpt -> nth_error vs i = Some x ->
  varint32 tg (num * 8 + wt_code LENDEL) -> varint32 l n -> zlen p < n <= max ->
  decodes t v (pre ++ tg ++ l ++ p) EndOfBuffer (SvM (upd i (stored k (SvB p)) vs) ovs) [].
Proof. exact string_cut. Qed.
Print Assumptions C33_cut.

Example C33_cut_applies : decodes Outer d0 (sample_a ++ [18] ++ [5] ++ [104; 105]) EndOfBuffer
  (SvM (upd 1 (SvB [104; 105]) vs0) ovs0) [].
Proof.
  refine (C33_cut od oo d0 sample_a vs0 ovs0 1 2 KPlain true 8 (SvB []) [18] [5] 5 _ Outer_ok outer_default_wt outer_default_clean
    sample_a_ok _ _ _ _ _ _); [reflexivity|left; reflexivity|reflexivity|v32|v32|cbn; lia].
Qed.

(** C38: whatever is wrong with the payload of a oneof member ([eread], SpecRead.v, with an error), no
    member is set afterwards. *)
Theorem C38_payload : forall fs os v pre vs ovs j ms num ty o tg bs e x rest, let t := EMsg fs os in
  desc_ok t -> wt t v -> clean t v -> mdec fs os (view t v) pre (SvM vs ovs) ->
  nth_error os j = Some ms -> lookup ms num = Some ty -> nth_error ovs j = Some o ->
  varint32 tg (num * 8 + wt_code (elem_wiretype ty)) ->
  eread true false ty (member_start num ty o) bs e x rest -> e <> NoErrors ->
  decodes t v (pre ++ tg ++ bs) e (SvM vs (upd j (0, SvNone) ovs)) rest.
Proof. exact oneof_malformed. Qed.
Print Assumptions C38_payload.

(** p = true was set; then q with the value of q.a cut off. *)
Example C38_payload_applies :
  decodes Outer d0 ((sample_a ++ r_p ++ []) ++ [66] ++ [2] ++ [8] ++ []) EndOfBuffer sample_mid [].
Proof.
  refine (C38_payload od oo d0 _ vs0 [(7, SvSome (SvZ 1))] 0 _ 8 Inner (7, SvSome (SvZ 1)) [66] _ _ (inner_s 0 []) _ Outer_ok outer_default_wt outer_default_clean
    _ _ _ _ _ _ _); [|reflexivity|reflexivity|reflexivity|v32| |discriminate].
  - exact (mdec_cons _ _ _ _ _ _ _ (sample_u _ _ _) (mdec_cons _ _ _ _ _ _ _ (sample_r _ _) (mdec_cons _ _ _ r_p _ [] _ (sample_p _ _ _) (mdec_nil _ _ _ _)))).
  - apply (eread_msg true false inner_fields [] (inner_s 0 []) [2] 2 [8] EndOfBuffer (inner_s 0 []) [] []); [v32|right; split; [cbn; lia|reflexivity]|].
    apply mread_stop; [|discriminate]. apply (rread_field true false inner_fields [] [SvZ 0; SvNone; SvB []] [] 0 1 KPlain (EScalar Int32) (SvZ 0) [8] VARINT [] EndOfBuffer (SvZ 0) []);
      [reflexivity|reflexivity|v32|]. apply fread_plain. apply eread_scalar_fails. apply scalar_fails_varint; [reflexivity|discriminate|].
    apply varint_cut; [cbn; lia|constructor].
Qed.

(** The same for a wire type that is not the member's. *)
Theorem C38_wiretype : forall fs os v pre vs ovs j ms num ty o tg w rest, let t := EMsg fs os in
  desc_ok t -> wt t v -> clean t v -> mdec fs os (view t v) pre (SvM vs ovs) ->
  nth_error os j = Some ms -> lookup ms num = Some ty -> nth_error ovs j = Some o ->
  varint32 tg (num * 8 + wt_code w) -> w <> elem_wiretype ty ->
  decodes t v (pre ++ tg ++ rest) InvalidWiretype (SvM vs (upd j (0, SvNone) ovs)) rest.
Proof. exact wrong_wiretype_oneof. Qed.
Print Assumptions C38_wiretype.

Example C38_wiretype_applies :
  decodes Outer d0 ((sample_a ++ r_p ++ []) ++ [64] ++ [1]) InvalidWiretype sample_mid [1].
Proof.
  refine (C38_wiretype od oo d0 _ vs0 [(7, SvSome (SvZ 1))] 0 _ 8 Inner (7, SvSome (SvZ 1)) [64] VARINT _ Outer_ok outer_default_wt outer_default_clean
    _ _ _ _ _ _); [|reflexivity|reflexivity|reflexivity|v32|discriminate].
  exact (mdec_cons _ _ _ _ _ _ _ (sample_u _ _ _) (mdec_cons _ _ _ _ _ _ _ (sample_r _ _) (mdec_cons _ _ _ r_p _ [] _ (sample_p _ _ _) (mdec_nil _ _ _ _)))).
Qed.

(** From a buffer that knows where its bytes end, also payloads that end inside an unknown record. *)
Theorem C38_bounded : forall fs os v vs ovs j ms num ty o tg bs e x rest, let t := EMsg fs os in
  desc_ok t -> wt t v -> clean t v -> view t v = SvM vs ovs ->
  nth_error os j = Some ms -> lookup ms num = Some ty -> nth_error ovs j = Some o ->
  varint32 tg (num * 8 + wt_code (elem_wiretype ty)) ->
  eread true true ty (member_start num ty o) bs e x rest -> e <> NoErrors ->
  forall S (R : rops S) rel, reader_ok R rel -> reader_bounded R rel -> forall s, rel s (tg ++ bs) ->
  forall fuel, (length (tg ++ bs) < fuel)%nat ->
  exists v' s', deserialize fuel t S R v s = Done (e, v', s') /\ view t v' = SvM vs (upd j (0, SvNone) ovs).
Proof. exact oneof_malformed_bounded. Qed.
Print Assumptions C38_bounded.

(** Whatever the buffer does: when a record of a oneof member fails ([msg_dispatch], Message.v, is the switch
    of deserialize()), decoding ends with that error and no member of the oneof reports has_. *)
Theorem C38_any_buffer : forall fs os v, let m := EMsg fs os in desc_ok m -> wt m v ->
  forall S (R : rops S) s w num s1, DeserializeTag R s = Done (NoErrors, Some (w, num), s1) ->
  forall j ms t, nth_error os j = Some ms -> lookup ms num = Some t ->
  forall fuel e v' s', (0 < fuel)%nat ->
  msg_dispatch fuel (dtab fuel fs) (dotab fuel os) num w R v s1 = Done (e, v', s') -> e <> NoErrors ->
  deserialize fuel m S R v s = Done (e, v', s') /\ which_oneof v' j = Done 0
  /\ forall id t', lookup ms id = Some t' -> has_member v' j id = Done false.
Proof. exact oneof_fails_unset. Qed.
Print Assumptions C38_any_buffer.

(** p = true, then q with the value of q.a cut off. *)
Example C38_any_applies :
  (exists s', deserialize 5 Outer _ lops d0 (r_p ++ []) = Done (NoErrors, VM [0] (match d0 with VM _ vs _ => vs | _ => [] end) [(7, VS 1)], s'))
  /\ exists v' s', deserialize 5 Outer _ lops (VM [0] (match d0 with VM _ vs _ => vs | _ => [] end) [(7, VS 1)]) [66; 2; 8] = Done (EndOfBuffer, v', s')
     /\ which_oneof v' 0 = Done 0.
Proof. split; [eexists; vm_compute; reflexivity|]. do 2 eexists. split; vm_compute; reflexivity. Qed.

(** C41 is false: of a field the generator dropped only the tag is skipped; its body is read as records
    of the message, with whatever result that has. *)
Theorem C41_dropped_refuted : forall fs os v pre vs ovs i num ty x tg w bs e new rest, let t := EMsg fs os in
  desc_ok t -> wt t v -> clean t v -> mdec fs os (view t v) pre (SvM vs ovs) ->
  nth_error fs i = Some (num, KRecursive, ty) -> nth_error vs i = Some x ->
  varint32 tg (num * 8 + wt_code w) ->
  mread true false fs os (SvM vs ovs) bs e new rest ->
  decodes t v (pre ++ tg ++ bs) e new rest.
Proof. exact dropped_field. Qed.
Print Assumptions C41_dropped_refuted.

(** In particular an empty message in such a field makes decoding fail. *)
Theorem C41_empty_refuted : forall fs os v pre vs ovs i num ty x tg rest, let t := EMsg fs os in
  desc_ok t -> wt t v -> clean t v -> mdec fs os (view t v) pre (SvM vs ovs) ->
  nth_error fs i = Some (num, KRecursive, ty) -> nth_error vs i = Some x ->
  varint32 tg (num * 8 + wt_code LENDEL) ->
  decodes t v (pre ++ tg ++ [0] ++ rest) InvalidFieldId (SvM vs ovs) rest.
Proof. exact dropped_empty. Qed.
Print Assumptions C41_empty_refuted.

(** message Node { uint32 u = 1; Node next = 2; } *)
Definition node_fields : list fdesc := [(1, KPlain, EScalar UInt32); (2, KRecursive, EMsg [] [])].
Definition Node : ety := EMsg node_fields [].
Lemma Node_ok : desc_ok Node.
Proof. cbn. repeat split; try lia; repeat constructor; cbn; intuition lia. Qed.
Lemma node_default_wt : wt Node (default_value Node).
Proof. cbn. repeat split; try lia; auto. Qed.
Lemma node_default_clean : clean Node (default_value Node).
Proof. cbn. auto. Qed.

(** next = {} followed by u = 5: u is never read. *)
Example C41_refuted_applies : decodes Node (default_value Node) ([] ++ [18] ++ [0] ++ [8; 5]) InvalidFieldId
  (view Node (default_value Node)) [8; 5].
Proof.
  refine (C41_empty_refuted node_fields [] (default_value Node) [] _ _ 1 2 (EMsg [] []) _ [18] [8; 5] Node_ok node_default_wt node_default_clean
    (mdec_nil _ _ _ _) _ _ _); [reflexivity|reflexivity|v32].
Qed.

(** What holds of C41: if what follows the tag happens to consist of records with unknown numbers, as
    after a tag with the wire type of a group, the other fields are decoded. *)
Theorem C41_partial : forall fs os v pre vs ovs i num ty x tg w us post new, let t := EMsg fs os in
  desc_ok t -> wt t v -> clean t v -> mdec fs os (view t v) pre (SvM vs ovs) ->
  nth_error fs i = Some (num, KRecursive, ty) -> nth_error vs i = Some x ->
  varint32 tg (num * 8 + wt_code w) -> unknown_records fs os us -> mdec fs os (SvM vs ovs) post new ->
  decodes t v (pre ++ tg ++ us ++ post) NoErrors new [].
Proof. exact dropped_unknown. Qed.
Print Assumptions C41_partial.

Example C41_partial_applies : decodes Node (default_value Node) ([] ++ [19] ++ [] ++ [8; 5]) NoErrors
  (SvM (upd 0 (SvZ 5) [SvZ 0; SvNone]) []) [].
Proof.
  refine (C41_partial node_fields [] (default_value Node) [] [SvZ 0; SvNone] [] 1 2 (EMsg [] []) SvNone [19] STARTGROUP [] [8; 5] _ Node_ok node_default_wt node_default_clean
    (mdec_nil _ _ _ _) _ _ _ (unknown_nil _ _) _); [reflexivity|reflexivity|v32|].
  refine (mdec_cons _ _ _ ([8] ++ [5]) _ [] _ _ (mdec_nil _ _ _ _)).
  eapply (rdec_plain node_fields [] _ _ 0 1 (EScalar UInt32) [8] [5] [5] (SvZ 0) (SvZ 5)); [reflexivity|reflexivity|v32|reflexivity|].
  constructor. split; [wf|reflexivity].
Qed.

(** C42 is false: a record of a repeated scalar field in unpacked form is refused. *)
Theorem C42_unpacked_refuted : forall fs os v pre vs ovs i num max sc old tg rest, let t := EMsg fs os in
  desc_ok t -> wt t v -> clean t v -> mdec fs os (view t v) pre (SvM vs ovs) ->
  nth_error fs i = Some (num, KRep max, EScalar sc) -> nth_error vs i = Some (SvR old) ->
  varint32 tg (num * 8 + wt_code (scalar_wiretype sc)) ->
  decodes t v (pre ++ tg ++ rest) InvalidWiretype (SvM vs ovs) rest.
Proof. exact unpacked_refused. Qed.
Print Assumptions C42_unpacked_refuted.

Example C42_refuted_applies : decodes Outer d0 (sample_a ++ [24] ++ [1]) InvalidWiretype sample_mid [1].
Proof.
  refine (C42_unpacked_refuted od oo d0 sample_a vs0 ovs0 2 3 4 UInt32 _ [24] _ Outer_ok outer_default_wt outer_default_clean
    sample_a_ok _ _ _); [reflexivity|reflexivity|v32].
Qed.

(** What holds of C42: the packed form is decoded, in any number of records. *)
Theorem C42_packed_partial : forall fs os v pre vs ovs i num max sc old tg l p zs post new, let t := EMsg fs os in
  desc_ok t -> wt t v -> clean t v -> mdec fs os (view t v) pre (SvM vs ovs) ->
  nth_error fs i = Some (num, KRep max, EScalar sc) -> nth_error vs i = Some (SvR old) ->
  varint32 tg (num * 8 + wt_code LENDEL) -> varint32 l (zlen p) -> packed_dec sc p zs ->
  zlen old + zlen zs <= max ->
  mdec fs os (SvM (upd i (SvR (old ++ map SvZ zs)) vs) ovs) post new ->
  decodes t v (pre ++ (tg ++ l ++ p) ++ post) NoErrors new [].
Proof. exact packed_decodes. Qed.
Print Assumptions C42_packed_partial.

Example C42_partial_applies : decodes Outer d0 (sample_a ++ ([26] ++ [2] ++ [7; 8]) ++ []) NoErrors
  (outer_s 300 [1; 300; 7; 8] (inner_s 0 []) (0, SvNone)) [].
Proof.
  refine (C42_packed_partial od oo d0 sample_a vs0 ovs0 2 3 4 UInt32 [SvZ 1; SvZ 300] [26] [2] [7; 8] [7; 8] [] _ Outer_ok outer_default_wt outer_default_clean
    sample_a_ok _ _ _ _ _ _ (mdec_nil _ _ _ _)); [reflexivity|reflexivity|v32|v32| |cbn; lia].
  apply (packed_cons UInt32 [7] 7 [8] [8]); [split; [wf|reflexivity]|].
  apply (packed_cons UInt32 [8] 8 [] []); [split; [wf|reflexivity]|constructor].
Qed.

(** C43: a known field number with another wire type. Nothing but the presence flag of an optional
    field changes ([shown]); for members of a oneof see C38_wiretype. *)
Theorem C43_wiretype : forall fs os v pre vs ovs i num k ty x tg w rest, let t := EMsg fs os in
  desc_ok t -> wt t v -> clean t v -> mdec fs os (view t v) pre (SvM vs ovs) ->
  nth_error fs i = Some (num, k, ty) -> k <> KRecursive -> nth_error vs i = Some x ->
  varint32 tg (num * 8 + wt_code w) -> w <> field_wiretype k ty ->
  decodes t v (pre ++ tg ++ rest) InvalidWiretype
    (SvM (upd i (match k with KOpt => shown ty x | _ => x end) vs) ovs) rest.
Proof. exact wrong_wiretype. Qed.
Print Assumptions C43_wiretype.

Example C43_wiretype_applies :
  decodes Outer d0 (sample_a ++ [13] ++ [1; 2; 3; 4]) InvalidWiretype sample_mid [1; 2; 3; 4]
  /\ decodes Outer d0 (sample_a ++ [40] ++ [1]) InvalidWiretype (SvM (upd 4 (SvSome (SvZ 0)) vs0) ovs0) [1].
Proof.
  split.
  - refine (C43_wiretype od oo d0 sample_a vs0 ovs0 0 1 KPlain (EScalar UInt32) (SvZ 300) [13] FIXED32 _ Outer_ok outer_default_wt outer_default_clean
      sample_a_ok _ _ _ _ _); [reflexivity|discriminate|reflexivity|v32|discriminate].
  - refine (C43_wiretype od oo d0 sample_a vs0 ovs0 4 5 KOpt (EScalar FloatFixed) SvNone [40] VARINT _ Outer_ok outer_default_wt outer_default_clean
      sample_a_ok _ _ _ _ _); [reflexivity|discriminate|reflexivity|v32|discriminate].
Qed.

Theorem C43_oneof : forall fs os v pre vs ovs j ms num ty o tg w rest, let t := EMsg fs os in
  desc_ok t -> wt t v -> clean t v -> mdec fs os (view t v) pre (SvM vs ovs) ->
  nth_error os j = Some ms -> lookup ms num = Some ty -> nth_error ovs j = Some o ->
  varint32 tg (num * 8 + wt_code w) -> w <> elem_wiretype ty ->
  decodes t v (pre ++ tg ++ rest) InvalidWiretype (SvM vs (upd j (0, SvNone) ovs)) rest.
Proof. exact wrong_wiretype_oneof. Qed.
Print Assumptions C43_oneof.

Example C43_oneof_applies : decodes Outer d0 (sample_a ++ [61] ++ [1; 2; 3; 4]) InvalidWiretype (SvM vs0 (upd 0 (0, SvNone) ovs0)) [1; 2; 3; 4].
Proof.
  refine (C43_oneof od oo d0 sample_a vs0 ovs0 0 [(7, EScalar Boolean); (8, Inner)] 7 (EScalar Boolean) (0, SvNone) [61] FIXED32 _ Outer_ok outer_default_wt outer_default_clean
    sample_a_ok _ _ _ _ _); [reflexivity|reflexivity|reflexivity|v32|discriminate].
Qed.

(** The wire types 6 and 7, which do not exist, whatever the field number. *)
Theorem C43_reserved : forall fs os v pre vs ovs tg n rest, let t := EMsg fs os in
  desc_ok t -> wt t v -> clean t v -> mdec fs os (view t v) pre (SvM vs ovs) ->
  varint32 tg n -> 5 < n mod 8 -> decodes t v (pre ++ tg ++ rest) InvalidWiretype (SvM vs ovs) rest.
Proof. exact reserved_wiretype. Qed.
Print Assumptions C43_reserved.

Example C43_reserved_applies : decodes Outer d0 (sample_a ++ [15] ++ [1]) InvalidWiretype sample_mid [1].
Proof.
  refine (C43_reserved od oo d0 sample_a vs0 ovs0 [15] 15 _ Outer_ok outer_default_wt outer_default_clean sample_a_ok _ _); [v32|cbn; lia].
Qed.

(** C44: field number 0, with any wire type. *)
Theorem C44_zero : forall fs os v pre vs ovs tg w rest, let t := EMsg fs os in
  desc_ok t -> wt t v -> clean t v -> mdec fs os (view t v) pre (SvM vs ovs) ->
  varint32 tg (wt_code w) -> decodes t v (pre ++ tg ++ rest) InvalidFieldId (SvM vs ovs) rest.
Proof. exact zero_number. Qed.
Print Assumptions C44_zero.

Example C44_applies : decodes Outer d0 (sample_a ++ [2] ++ [8; 5]) InvalidFieldId sample_mid [8; 5].
Proof.
  refine (C44_zero od oo d0 sample_a vs0 ovs0 [2] LENDEL _ Outer_ok outer_default_wt outer_default_clean sample_a_ok _). v32.
Qed.

(** C51 is false: a uint32 or enum value written with more than five bytes, as protobuf does for
    negative enum values, is refused. *)
Theorem C51_long_refuted : forall fs os v pre vs ovs i num k sc x tg c rest, let t := EMsg fs os in
  desc_ok t -> wt t v -> clean t v -> mdec fs os (view t v) pre (SvM vs ovs) ->
  nth_error fs i = Some (num, k, EScalar sc) -> k = KPlain \/ k = KOpt -> nth_error vs i = Some x ->
  sc = UInt32 \/ sc = Enumeration ->
  varint32 tg (num * 8 + wt_code VARINT) -> varint_wf 10 c -> (5 < length c)%nat ->
  exists new rest', decodes t v (pre ++ tg ++ c ++ rest) OverlongVarint new rest'.
Proof. exact long_varint_refused. Qed.
Print Assumptions C51_long_refuted.

(** -1 in the ten-byte form. *)
Example C51_refuted_applies : exists new rest',
  decodes Outer d0 (sample_a ++ [8] ++ [255; 255; 255; 255; 255; 255; 255; 255; 255; 1] ++ []) OverlongVarint new rest'.
Proof.
  refine (C51_long_refuted od oo d0 sample_a vs0 ovs0 0 1 KPlain UInt32 (SvZ 300) [8] _ [] Outer_ok outer_default_wt outer_default_clean
    sample_a_ok _ _ _ _ _ _ _); [reflexivity|left; reflexivity|reflexivity|left; reflexivity|v32| |cbn; lia].
  exists [255; 255; 255; 255; 255; 255; 255; 255; 255], 1. split; [reflexivity|]. split; [cbn; lia|]. split; [|lia]. repeat constructor; lia.
Qed.

(** What holds of C51: the other types take varints of up to ten bytes, uint32 and enums of up to five. *)
Theorem C51_varint_partial : forall fs os v pre vs ovs i num k sc x tg c post new, let t := EMsg fs os in
  desc_ok t -> wt t v -> clean t v -> mdec fs os (view t v) pre (SvM vs ovs) ->
  nth_error fs i = Some (num, k, EScalar sc) -> k = KPlain \/ k = KOpt -> nth_error vs i = Some x ->
  varint32 tg (num * 8 + wt_code VARINT) -> varint_wf 10 c ->
  forall z, z = match sc with
                | Int32 => to_signed 32 (varint_value c)
                | Int64 => to_signed 64 (varint_value c)
                | UInt64 => varint_value c mod 2 ^ 64
                | SInt32 => unzigzag (varint_value c mod 2 ^ 32)
                | SInt64 => unzigzag (varint_value c mod 2 ^ 64)
                | _ => varint_value c mod 2 ^ 32
                end ->
  match sc with
  | Int32 | Int64 | UInt64 | SInt32 | SInt64 => True
  | UInt32 | Enumeration => (length c <= 5)%nat
  | _ => False
  end ->
  mdec fs os (SvM (upd i (stored k (SvZ z)) vs) ovs) post new ->
  decodes t v (pre ++ tg ++ c ++ post) NoErrors new [].
Proof. exact any_varint_read. Qed.
Print Assumptions C51_varint_partial.

(** -1 in the ten-byte form for an int32, and in a five-byte form for a uint32. *)
Example C51_partial_applies :
  decodes Inner (default_value Inner) ([] ++ [8] ++ [255; 255; 255; 255; 255; 255; 255; 255; 255; 1] ++ []) NoErrors (inner_s (-1) []) []
  /\ decodes Outer d0 (sample_a ++ [8] ++ [255; 255; 255; 255; 15] ++ []) NoErrors (SvM (upd 0 (SvZ 4294967295) vs0) ovs0) [].
Proof.
  split.
  - refine (C51_varint_partial inner_fields [] (default_value Inner) [] [SvZ 0; SvNone; SvB []] [] 0 1 KPlain Int32 (SvZ 0) [8] _ [] _
      Inner_ok _ _ (mdec_nil _ _ _ _) _ _ _ _ _ (-1) _ I (mdec_nil _ _ _ _));
      [cbn; unfold is_byte, is_u32; repeat split; try (vm_compute; congruence); lia|cbn; repeat split; try (vm_compute; congruence)
      |reflexivity|left; reflexivity|reflexivity|v32| |reflexivity].
    exists [255; 255; 255; 255; 255; 255; 255; 255; 255], 1. split; [reflexivity|]. split; [cbn; lia|]. split; [|lia]. repeat constructor; lia.
  - refine (C51_varint_partial od oo d0 sample_a vs0 ovs0 0 1 KPlain UInt32 (SvZ 300) [8] _ [] _ Outer_ok outer_default_wt outer_default_clean
      sample_a_ok _ _ _ _ _ 4294967295 _ _ (mdec_nil _ _ _ _)); [reflexivity|left; reflexivity|reflexivity|v32| |reflexivity|cbn; lia].
    exists [255; 255; 255; 255], 15. split; [reflexivity|]. split; [cbn; lia|]. split; [|lia]. repeat constructor; lia.
Qed.

(** C52 is false over a fixed-size buffer: the payload [p] of an unknown record that is cut off by the end
    of the input, a single offending record, changes as many fields as it likes before decoding fails. *)
Theorem C52_cut_unknown_refuted : forall fs os v pre vs ovs num tg l n p e new rest, let t := EMsg fs os in
  let bytes := pre ++ tg ++ l ++ p in
  desc_ok t -> wt t v -> clean t v -> mdec fs os (view t v) pre (SvM vs ovs) ->
  ~ In num (field_numbers fs os) -> 0 < num ->
  varint32 tg (num * 8 + wt_code LENDEL) -> varint32 l n -> Forall is_byte bytes -> zlen p < n ->
  zlen (pre ++ tg ++ l) + n < 2 ^ 32 ->
  mread true false fs os (SvM vs ovs) p e new rest -> ~ one_place (SvM vs ovs) new ->
  forall fuel, (length bytes < fuel)%nat -> exists v' s',
  deserialize fuel t rfix (rfix_ops (zlen bytes)) v (rfix_of bytes) = Done (e, v', s')
  /\ ~ one_place (SvM vs ovs) (view t v').
Proof. exact cut_changes_many. Qed.
Print Assumptions C52_cut_unknown_refuted.

(** Unknown field 100 announcing 200 bytes; those that are there set field 6 and the oneof and then end
    inside the value of field 1. *)
Example C52_refuted_applies : let bytes := sample_a ++ [162; 6] ++ [200; 1] ++ (r_n ++ r_p ++ []) ++ [8] ++ [] in exists v' s',
  deserialize 100 Outer rfix (rfix_ops (zlen bytes)) d0 (rfix_of bytes) = Done (EndOfBuffer, v', s')
  /\ ~ one_place (SvM vs0 ovs0) (view Outer v').
Proof.
  refine (C52_cut_unknown_refuted od oo d0 sample_a vs0 ovs0 100 _ _ 200 _ EndOfBuffer _ [] Outer_ok outer_default_wt outer_default_clean
    sample_a_ok _ _ _ _ _ _ _ _ _ 100 _); [cbn; intuition lia|lia|v32|v32|repeat constructor; unfold is_byte; lia|vm_compute; reflexivity|vm_compute; reflexivity| | |cbn; lia].
  - apply (mread_after true false _ _ _ _ _ (mdec_cons _ _ _ r_n _ _ _ (sample_n _) (mdec_cons _ _ _ r_p _ [] _ (sample_p _ _ _) (mdec_nil _ _ _ _)))).
    apply mread_stop; [|discriminate]. apply (rread_field true false od oo (upd 5 (inner_s 1 [120]) vs0) [(7, SvSome (SvZ 1))] 0 1 KPlain (EScalar UInt32) (SvZ 300) [8] VARINT [] EndOfBuffer (SvZ 300) []);
      [reflexivity|reflexivity|v32|]. apply fread_plain. apply eread_scalar_fails. apply scalar_fails_varint; [reflexivity|discriminate|].
    apply varint_cut; [cbn; lia|constructor].
  - intros (vs & ovs & E & [H|[(i & x & H)|(j & o & H)]]); injection E as <- <-; discriminate H.
Qed.

(** What holds of C52: after any other input, whatever its result, the object is valid; the records before
    the failing one have been decoded; the failing one changed one field or oneof at most. *)
Theorem C52_kept_partial : forall fs os v bs, let t := EMsg fs os in
  desc_ok t -> wt t v -> clean t v -> Forall is_byte bs -> ~ mover fs os (view t v) bs ->
  forall S (R : rops S) rel, reader_ok R rel -> forall s, rel s bs -> forall fuel, (length bs < fuel)%nat ->
  exists e v' s' mid bs', deserialize fuel t S R v s = Done (e, v', s') /\ wt t v' /\ clean t v'
    /\ records_read false fs os (view t v) bs mid bs' /\ one_place mid (view t v') /\ (e = NoErrors -> mid = view t v').
Proof. exact kept_before. Qed.
Print Assumptions C52_kept_partial.

Example C52_applies : exists e v' s' mid bs', deserialize 10 Inner _ lops di cut_hello = Done (e, v', s')
  /\ records_read false inner_fields [] (view Inner di) cut_hello mid bs' /\ one_place mid (view Inner v').
Proof.
  destruct (C52_kept_partial inner_fields [] di cut_hello Inner_ok inner_default_wt inner_default_clean cut_hello_bytes hello_mover
    _ lops lrel lops_ok cut_hello) with (fuel := 10%nat) as (e & v' & s' & mid & bs' & H & _ & _ & H1 & H2 & _);
    [split; [reflexivity|exact cut_hello_bytes]|cbn; lia|]. exists e, v', s', mid, bs'. auto.
Qed.

(** Without exception for buffers that know where their bytes end. *)
Theorem C52_bounded_partial : forall fs os v bs, let t := EMsg fs os in
  desc_ok t -> wt t v -> clean t v -> Forall is_byte bs ->
  forall S (R : rops S) rel, reader_ok R rel -> reader_bounded R rel -> forall s, rel s bs ->
  forall fuel, (length bs < fuel)%nat ->
  exists e v' s' mid bs', deserialize fuel t S R v s = Done (e, v', s') /\ wt t v' /\ clean t v'
    /\ records_read true fs os (view t v) bs mid bs' /\ one_place mid (view t v') /\ (e = NoErrors -> mid = view t v').
Proof. exact kept_before_bounded. Qed.
Print Assumptions C52_bounded_partial.

Example C52_bounded_applies : exists e v' s' mid bs', deserialize 10 Outer _ lops d0 [162; 6; 200; 1; 8] = Done (e, v', s')
  /\ records_read true od oo (view Outer d0) [162; 6; 200; 1; 8] mid bs' /\ one_place mid (view Outer v').
Proof.
  assert (Hb : Forall is_byte [162; 6; 200; 1; 8]) by (repeat constructor; unfold is_byte; lia).
  destruct (C52_bounded_partial od oo d0 [162; 6; 200; 1; 8] Outer_ok outer_default_wt outer_default_clean Hb
    _ lops lrel lops_ok lops_bounded [162; 6; 200; 1; 8]) with (fuel := 10%nat) as (e & v' & s' & mid & bs' & H & _ & _ & H1 & H2 & _);
    [split; [reflexivity|exact Hb]|cbn; lia|]. exists e, v', s', mid, bs'. auto.
Qed.

(** C53 is false: a negative int32 is written as the five-byte varint of its 32-bit pattern, not in
    protobuf's ten-byte sign-extended form. *)
Theorem C53_negative_refuted : forall num z, 0 < num < 2 ^ 29 -> - 2 ^ 31 <= z < 0 ->
  forall cap b c n, wfix_rel cap b c (Some n) -> forall b',
  serialize (one_int32 num) (VM [] [VS z] []) wfix (wfix_ops cap) b = Done (NoErrors, b') ->
  wfix_content b' = wfix_content b ++ tag num VARINT ++ varint (z + 2 ^ 32)
  /\ zlen (varint (z + 2 ^ 32)) = 5 /\ zlen (varint (z + 2 ^ 64)) = 10.
Proof. exact int32_negative. Qed.
Print Assumptions C53_negative_refuted.

Example C53_refuted_applies : exists b', serialize (one_int32 1) (VM [] [VS (-2)] []) wfix (wfix_ops 8) (wfix_init 8) = Done (NoErrors, b')
  /\ wfix_content b' = [8; 254; 255; 255; 255; 15].
Proof. eexists. split; vm_compute; reflexivity. Qed.

Theorem C53_nonnegative_partial : forall num z, 0 < num < 2 ^ 29 -> 0 < z < 2 ^ 31 ->
  forall cap b c n, wfix_rel cap b c (Some n) -> forall b',
  serialize (one_int32 num) (VM [] [VS z] []) wfix (wfix_ops cap) b = Done (NoErrors, b') ->
  wfix_content b' = wfix_content b ++ tag num VARINT ++ varint z.
Proof. exact int32_nonnegative. Qed.
Print Assumptions C53_nonnegative_partial.

Example C53_nonnegative_applies : exists b', serialize (one_int32 1) (VM [] [VS 300] []) wfix (wfix_ops 8) (wfix_init 8) = Done (NoErrors, b')
  /\ wfix_content b' = [8; 172; 2].
Proof. eexists. split; vm_compute; reflexivity. Qed.

(** C54 is false: for input that ends inside an unknown length-delimited record the outcome depends on the
    buffer. Over a fixed-size buffer the payload [p] is read as records; a buffer that knows where its
    bytes end skips it. *)
Theorem C54_two_outcomes_refuted : forall fs os v pre vs ovs num tg l n p e new rest, let t := EMsg fs os in
  let bytes := pre ++ tg ++ l ++ p in
  desc_ok t -> wt t v -> clean t v -> mdec fs os (view t v) pre (SvM vs ovs) ->
  ~ In num (field_numbers fs os) -> 0 < num ->
  varint32 tg (num * 8 + wt_code LENDEL) -> varint32 l n -> Forall is_byte bytes -> zlen p < n ->
  zlen (pre ++ tg ++ l) + n < 2 ^ 32 ->
  mread true false fs os (SvM vs ovs) p e new rest ->
  forall fuel, (length bytes < fuel)%nat ->
  (exists v' s', deserialize fuel t rfix (rfix_ops (zlen bytes)) v (rfix_of bytes) = Done (e, v', s') /\ view t v' = new)
  /\ (forall S (R : rops S) rel, reader_ok R rel -> reader_bounded R rel -> forall s, rel s bytes ->
      exists v' s', deserialize fuel t S R v s = Done (NoErrors, v', s') /\ view t v' = SvM vs ovs).
Proof. exact two_outcomes. Qed.
Print Assumptions C54_two_outcomes_refuted.

(** The input of C26_refuted_applies: field 6 is set by one buffer and not by the other. *)
Example C54_refuted_applies : let bytes := sample_a ++ [162; 6] ++ [200; 1] ++ r_n in
  (exists v' s', deserialize 100 Outer rfix (rfix_ops (zlen bytes)) d0 (rfix_of bytes) = Done (NoErrors, v', s')
    /\ view Outer v' = SvM (upd 5 (inner_s 1 [120]) vs0) ovs0)
  /\ (exists v' s', deserialize 100 Outer _ lops d0 bytes = Done (NoErrors, v', s') /\ view Outer v' = SvM vs0 ovs0).
Proof.
  intros bytes. assert (Hb : Forall is_byte bytes) by (repeat constructor; unfold is_byte; lia).
  destruct (C54_two_outcomes_refuted od oo d0 sample_a vs0 ovs0 100 [162; 6] [200; 1] 200 r_n NoErrors (SvM (upd 5 (inner_s 1 [120]) vs0) ovs0) [] Outer_ok outer_default_wt outer_default_clean
    sample_a_ok) with (fuel := 100%nat) as [H1 H2]; [cbn; intuition lia|lia|v32|v32|exact Hb|vm_compute; reflexivity|vm_compute; reflexivity| |cbn; lia|].
  - apply (proj1 (proj2 (dec_reads true))). exact (mdec_cons _ _ _ r_n _ [] _ (sample_n _) (mdec_nil _ _ _ _)).
  - split; [exact H1|]. apply (H2 _ lops lrel lops_ok lops_bounded). split; [reflexivity|exact Hb].
Qed.

(** What holds of C54: what decoding does with any other input. [mread] (SpecRead.v) lists result, values and unread bytes
    case by case. *)
Theorem C54_every_input_partial : forall fs os v bs, let t := EMsg fs os in
  desc_ok t -> wt t v -> clean t v -> Forall is_byte bs -> ~ mover fs os (view t v) bs ->
  forall S (R : rops S) rel, reader_ok R rel -> forall s, rel s bs -> forall fuel, (length bs < fuel)%nat ->
  exists e v' s' rest, deserialize fuel t S R v s = Done (e, v', s') /\ rel s' rest
    /\ wt t v' /\ clean t v' /\ mread false false fs os (view t v) bs e (view t v') rest.
Proof. exact decode_any. Qed.
Print Assumptions C54_every_input_partial.

Example C54_every_applies : exists e v' s' rest, deserialize 10 Inner _ lops di cut_hello = Done (e, v', s')
  /\ mread false false inner_fields [] (view Inner di) cut_hello e (view Inner v') rest.
Proof.
  destruct (C54_every_input_partial inner_fields [] di cut_hello Inner_ok inner_default_wt inner_default_clean cut_hello_bytes hello_mover
    _ lops lrel lops_ok cut_hello) with (fuel := 10%nat) as (e & v' & s' & rest & H & _ & _ & _ & H1);
    [split; [reflexivity|exact cut_hello_bytes]|cbn; lia|]. exists e, v', s', rest. auto.
Qed.

(** Without exception for buffers that know where their bytes end. *)
Theorem C54_bounded_partial : forall fs os v bs, let t := EMsg fs os in
  desc_ok t -> wt t v -> clean t v -> Forall is_byte bs ->
  forall S (R : rops S) rel, reader_ok R rel -> reader_bounded R rel -> forall s, rel s bs ->
  forall fuel, (length bs < fuel)%nat ->
  exists e v' s' rest, deserialize fuel t S R v s = Done (e, v', s') /\ rel s' rest
    /\ wt t v' /\ clean t v' /\ mread false true fs os (view t v) bs e (view t v') rest.
Proof. exact decode_any_bounded. Qed.
Print Assumptions C54_bounded_partial.

Example C54_bd_applies : exists e v' s' rest, deserialize 10 Outer _ lops d0 [162; 6; 200; 1; 8] = Done (e, v', s')
  /\ mread false true od oo (view Outer d0) [162; 6; 200; 1; 8] e (view Outer v') rest.
Proof.
  assert (Hb : Forall is_byte [162; 6; 200; 1; 8]) by (repeat constructor; unfold is_byte; lia).
  destruct (C54_bounded_partial od oo d0 [162; 6; 200; 1; 8] Outer_ok outer_default_wt outer_default_clean Hb
    _ lops lrel lops_ok lops_bounded [162; 6; 200; 1; 8]) with (fuel := 10%nat) as (e & v' & s' & rest & H & _ & _ & _ & H1);
    [split; [reflexivity|exact Hb]|cbn; lia|]. exists e, v', s', rest. auto.
Qed.

(** The outcome depends on the bytes and on what the getters showed before only: not on the kind of
    buffer, nor on anything in the object that no getter shows. *)
Theorem C54_same_outcome_partial : forall fs os v1 v2 bs, let t := EMsg fs os in
  desc_ok t -> wt t v1 -> clean t v1 -> wt t v2 -> clean t v2 -> view t v1 = view t v2 ->
  Forall is_byte bs -> ~ mover fs os (view t v1) bs ->
  forall S1 (R1 : rops S1) rel1 S2 (R2 : rops S2) rel2, reader_ok R1 rel1 -> reader_ok R2 rel2 ->
  forall s1 s2, rel1 s1 bs -> rel2 s2 bs -> forall fuel1 fuel2, (length bs < fuel1)%nat -> (length bs < fuel2)%nat ->
  exists e v1' s1' v2' s2' rest, deserialize fuel1 t S1 R1 v1 s1 = Done (e, v1', s1')
    /\ deserialize fuel2 t S2 R2 v2 s2 = Done (e, v2', s2') /\ rel1 s1' rest /\ rel2 s2' rest
    /\ (e = NoErrors -> rest = [] /\ view t v1' = view t v2').
Proof. exact same_outcome. Qed.
Print Assumptions C54_same_outcome_partial.

(** The objects differ in the bytes beyond the length of the string. *)
Definition di' : value := VM [0] [VS 0; VS 0; VB 0 [1; 2; 3; 4; 5; 6; 7; 8]] [].
Example C54_same_applies : di <> di' /\ wt Inner di' /\ clean Inner di' /\ view Inner di = view Inner di'
  /\ Forall is_byte cut_hello /\ ~ mover inner_fields [] (view Inner di) cut_hello.
Proof.
  split; [discriminate|]. split; [cbn; unfold is_byte, is_u32; repeat split; try (vm_compute; congruence); lia|].
  split; [cbn; repeat split; try (vm_compute; congruence)|]. split; [reflexivity|]. split; [exact cut_hello_bytes|exact hello_mover].
Qed.

(** For buffers that know where their bytes end, without exception. *)
Theorem C54_same_bounded_partial : forall fs os v1 v2 bs, let t := EMsg fs os in
  desc_ok t -> wt t v1 -> clean t v1 -> wt t v2 -> clean t v2 -> view t v1 = view t v2 -> Forall is_byte bs ->
  forall S1 (R1 : rops S1) rel1 S2 (R2 : rops S2) rel2, reader_ok R1 rel1 -> reader_ok R2 rel2 ->
  reader_bounded R1 rel1 -> reader_bounded R2 rel2 ->
  forall s1 s2, rel1 s1 bs -> rel2 s2 bs -> forall fuel1 fuel2, (length bs < fuel1)%nat -> (length bs < fuel2)%nat ->
  exists e v1' s1' v2' s2' rest, deserialize fuel1 t S1 R1 v1 s1 = Done (e, v1', s1')
    /\ deserialize fuel2 t S2 R2 v2 s2 = Done (e, v2', s2') /\ rel1 s1' rest /\ rel2 s2' rest
    /\ (e = NoErrors -> rest = [] /\ view t v1' = view t v2').
Proof. exact same_outcome_bounded. Qed.
Print Assumptions C54_same_bounded_partial.

Example C54_same_bounded_applies : exists e v1' s1' v2' s2',
  deserialize 10 Inner _ lops di (cut_hello ++ [34; 9]) = Done (e, v1', s1')
  /\ deserialize 11 Inner _ lops di' (cut_hello ++ [34; 9]) = Done (e, v2', s2').
Proof.
  assert (Hb : Forall is_byte (cut_hello ++ [34; 9])) by (repeat constructor; unfold is_byte; lia).
  destruct (C54_same_bounded_partial inner_fields [] di di' (cut_hello ++ [34; 9]) Inner_ok inner_default_wt inner_default_clean
    (proj1 (proj2 C54_same_applies)) (proj1 (proj2 (proj2 C54_same_applies))) eq_refl Hb
    _ lops lrel _ lops lrel lops_ok lops_ok lops_bounded lops_bounded (cut_hello ++ [34; 9]) (cut_hello ++ [34; 9])) with (fuel1 := 10%nat) (fuel2 := 11%nat)
    as (e & v1 & s1 & v2 & s2 & rest & H1 & H2 & _); [split; [reflexivity|exact Hb]|split; [reflexivity|exact Hb]|cbn; lia|cbn; lia|].
  exists e, v1, s1, v2, s2. auto.
Qed.

(** C55 is false: a length of a packed field that cannot be read is taken for 0, *)
Theorem C55_length_refuted : forall fs os v pre vs ovs i num max sc old tg c e1 rest e2 new, let t := EMsg fs os in
  desc_ok t -> wt t v -> clean t v -> mdec fs os (view t v) pre (SvM vs ovs) ->
  nth_error fs i = Some (num, KRep max, EScalar sc) -> nth_error vs i = Some (SvR old) ->
  varint32 tg (num * 8 + wt_code LENDEL) -> varint_fails 5 c e1 rest ->
  mread true false fs os (SvM vs ovs) rest e2 new [] ->
  decodes t v (pre ++ tg ++ c) e2 new [].
Proof. exact packed_length_ignored. Qed.
Print Assumptions C55_length_refuted.

Example C55_length_applies :
  decodes Outer d0 (sample_a ++ [26] ++ [255; 255; 255; 255; 255] ++ sample_b) NoErrors sample_new [].
Proof.
  refine (C55_length_refuted od oo d0 sample_a vs0 ovs0 2 3 4 UInt32 _ [26] _ OverlongVarint sample_b NoErrors _ Outer_ok outer_default_wt outer_default_clean
    sample_a_ok _ _ _ _ _); [reflexivity|reflexivity|v32| |].
  - apply (varint_overlong 5 [255; 255; 255; 255; 255] sample_b); [reflexivity|repeat constructor; lia].
  - apply (proj1 (proj2 (dec_reads true))). exact sample_b_ok.
Qed.

(** and the beginning [r] of an element at the end of the payload is dropped. *)
Theorem C55_partial_element_refuted : forall fs os v pre vs ovs i num max sc old tg l q r zs post new, let t := EMsg fs os in
  desc_ok t -> wt t v -> clean t v -> mdec fs os (view t v) pre (SvM vs ovs) ->
  nth_error fs i = Some (num, KRep max, EScalar sc) -> nth_error vs i = Some (SvR old) ->
  varint32 tg (num * 8 + wt_code LENDEL) -> varint32 l (zlen (q ++ r)) -> packed_dec sc q zs ->
  zlen old + zlen zs <= max -> scalar_fails sc r EndOfBuffer [] ->
  mdec fs os (SvM (upd i (SvR (old ++ map SvZ zs)) vs) ovs) post new ->
  decodes t v (pre ++ tg ++ l ++ (q ++ r) ++ post) NoErrors new [].
Proof. exact packed_partial_dropped. Qed.
Print Assumptions C55_partial_element_refuted.

Example C55_partial_element_applies :
  decodes Outer d0 (sample_a ++ [26] ++ [2] ++ ([7] ++ [172]) ++ []) NoErrors (outer_s 300 [1; 300; 7] (inner_s 0 []) (0, SvNone)) [].
Proof.
  refine (C55_partial_element_refuted od oo d0 sample_a vs0 ovs0 2 3 4 UInt32 [SvZ 1; SvZ 300] [26] [2] [7] [172] [7] [] _ Outer_ok outer_default_wt outer_default_clean
    sample_a_ok _ _ _ _ _ _ _ (mdec_nil _ _ _ _)); [reflexivity|reflexivity|v32|v32| |cbn; lia|].
  - apply (packed_cons UInt32 [7] 7 [] []); [split; [wf|reflexivity]|constructor].
  - apply scalar_fails_varint; [reflexivity|discriminate|]. apply varint_cut; [cbn; lia|repeat constructor; lia].
Qed.

(** What holds of C55: more elements than fit, and overlong elements, are reported; the elements
    before are kept. *)
Theorem C55_too_many_partial : forall fs os v pre vs ovs i num max sc old tg l q zs c z r rest, let t := EMsg fs os in
  desc_ok t -> wt t v -> clean t v -> mdec fs os (view t v) pre (SvM vs ovs) ->
  nth_error fs i = Some (num, KRep max, EScalar sc) -> nth_error vs i = Some (SvR old) ->
  varint32 tg (num * 8 + wt_code LENDEL) -> varint32 l (zlen (q ++ c ++ r)) ->
  packed_dec sc q zs -> zlen old + zlen zs = max -> scalar_dec sc c z ->
  decodes t v (pre ++ tg ++ l ++ (q ++ c ++ r) ++ rest) ArrayFull
    (SvM (upd i (SvR (old ++ map SvZ zs)) vs) ovs) (r ++ rest).
Proof. exact packed_too_many. Qed.
Print Assumptions C55_too_many_partial.

Example C55_too_many_applies :
  decodes Outer d0 (sample_a ++ [26] ++ [3] ++ ([7; 8] ++ [9] ++ []) ++ []) ArrayFull (outer_s 300 [1; 300; 7; 8] (inner_s 0 []) (0, SvNone)) ([] ++ []).
Proof.
  refine (C55_too_many_partial od oo d0 sample_a vs0 ovs0 2 3 4 UInt32 [SvZ 1; SvZ 300] [26] [3] [7; 8] [7; 8] [9] 9 [] [] Outer_ok outer_default_wt outer_default_clean
    sample_a_ok _ _ _ _ _ _ _); [reflexivity|reflexivity|v32|v32| |reflexivity|split; [wf|reflexivity]].
  apply (packed_cons UInt32 [7] 7 [8] [8]); [split; [wf|reflexivity]|].
  apply (packed_cons UInt32 [8] 8 [] []); [split; [wf|reflexivity]|constructor].
Qed.

Theorem C55_overlong_partial : forall fs os v pre vs ovs i num max sc old tg l q zs r rest' rest, let t := EMsg fs os in
  desc_ok t -> wt t v -> clean t v -> mdec fs os (view t v) pre (SvM vs ovs) ->
  nth_error fs i = Some (num, KRep max, EScalar sc) -> nth_error vs i = Some (SvR old) ->
  varint32 tg (num * 8 + wt_code LENDEL) -> varint32 l (zlen (q ++ r)) ->
  packed_dec sc q zs -> zlen old + zlen zs <= max -> scalar_fails sc r OverlongVarint rest' ->
  decodes t v (pre ++ tg ++ l ++ (q ++ r) ++ rest) OverlongVarint
    (SvM (upd i (SvR (old ++ map SvZ zs)) vs) ovs) (rest' ++ rest).
Proof. exact packed_overlong. Qed.
Print Assumptions C55_overlong_partial.

Example C55_overlong_applies :
  decodes Outer d0 (sample_a ++ [26] ++ [6] ++ ([7] ++ [255; 255; 255; 255; 255]) ++ [8; 5]) OverlongVarint (outer_s 300 [1; 300; 7] (inner_s 0 []) (0, SvNone)) ([] ++ [8; 5]).
Proof.
  refine (C55_overlong_partial od oo d0 sample_a vs0 ovs0 2 3 4 UInt32 [SvZ 1; SvZ 300] [26] [6] [7] [7] [255; 255; 255; 255; 255] [] [8; 5] Outer_ok outer_default_wt outer_default_clean
    sample_a_ok _ _ _ _ _ _ _); [reflexivity|reflexivity|v32|v32| |cbn; lia|].
  - apply (packed_cons UInt32 [7] 7 [] []); [split; [wf|reflexivity]|constructor].
  - apply scalar_fails_varint; [reflexivity|discriminate|]. apply (varint_overlong 5 [255; 255; 255; 255; 255] []); [reflexivity|repeat constructor; lia].
Qed.
