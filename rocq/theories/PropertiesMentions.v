(** * Property C84: a record changes only the field it names.

    [mentions bytes num] (SpecMentions.v): somewhere in the bytes is something that can be read as the tag of field
    [num]. [wt] is any valid object, also one with stale content. *)
From Verif Require Import Base Buffers Wire Schema Fields Message Api Spec SpecMentions Tables Samples DecodeSamples MentionsProofs MentionsSamples.

(** C84: decoding any bytes into any valid object, with whatever outcome, leaves every field as it was whose tag is
    nowhere in the bytes, and every oneof of which no member's tag is in the bytes. Fields are compared by what the
    accessors show, presence included. *)
Theorem C84_unmentioned : forall fs os v bytes, let m := EMsg fs os in
  desc_ok m -> wt m v -> Forall is_byte bytes -> zlen bytes < 2 ^ 32 ->
  forall fuel e v' s', deserialize fuel m rfix (rfix_ops (zlen bytes)) v (rfix_of bytes) = Done (e, v', s') ->
  exists vs ovs vs' ovs', view m v = SvM vs ovs /\ view m v' = SvM vs' ovs'
  /\ (forall i num k t, nth_error fs i = Some (num, k, t) -> ~ mentions bytes num -> nth_error vs' i = nth_error vs i)
  /\ (forall j ms, nth_error os j = Some ms -> (forall num t, lookup ms num = Some t -> ~ mentions bytes num) ->
        nth_error ovs' j = nth_error ovs j).
Proof. exact unmentioned_kept. Qed.
Print Assumptions C84_unmentioned.

(** Bytes that mention no field of the class leave the whole object as it was, down to the parts no accessor shows. *)
Theorem C84_none_mentioned : forall fs os v bytes, let m := EMsg fs os in
  desc_ok m -> wt m v -> Forall is_byte bytes -> zlen bytes < 2 ^ 32 ->
  (forall num, In num (field_numbers fs os) -> ~ mentions bytes num) ->
  forall fuel e v' s', deserialize fuel m rfix (rfix_ops (zlen bytes)) v (rfix_of bytes) = Done (e, v', s') -> v' = v.
Proof. exact none_mentioned. Qed.
Print Assumptions C84_none_mentioned.

(** One round of deserialize() after the tag of field [num] has been read, from any buffer, also one that breaks its
    contract: the other fields and oneofs stay as they were, on success and on error. *)
Theorem C84_one_record : forall fs os v, let m := EMsg fs os in desc_ok m -> wt m v ->
  forall S (R : rops S) s w num fuel e v' s',
  msg_dispatch fuel (dtab fuel fs) (dotab fuel os) num w R v s = Done (e, v', s') ->
  exists vs ovs vs' ovs', view m v = SvM vs ovs /\ view m v' = SvM vs' ovs'
  /\ (forall i num' k t, nth_error fs i = Some (num', k, t) -> num' <> num -> nth_error vs' i = nth_error vs i)
  /\ (forall j ms, nth_error os j = Some ms -> lookup ms num = None -> nth_error ovs' j = nth_error ovs j).
Proof. exact one_record. Qed.
Print Assumptions C84_one_record.

(** C36, C84: the presence flags after one record: that of the field it names is set, also when its value turns out to be
    malformed or missing, and the others are as before. *)
Theorem C84_flags : forall fs os v, let m := EMsg fs os in desc_ok m -> wt m v ->
  forall S (R : rops S) s w num fuel e v' s',
  msg_dispatch fuel (dtab fuel fs) (dotab fuel os) num w R v s = Done (e, v', s') ->
  forall pos num' t, nth_error fs pos = Some (num', KOpt, t) ->
  has_field fs v' pos = if num' =? num then Done true else has_field fs v pos.
Proof. exact record_flags. Qed.
Print Assumptions C84_flags.

(** A filled object; a scalar, a nested message that ends inside a tag, then an optional float that is cut off. Fields 1,
    5 and 6 are mentioned, so the others and the oneof are kept. *)
Definition hostile : list Z := [8; 6; 50; 1; 136; 45; 1].

Example C84_applies : desc_ok Outer /\ wt Outer outer_v /\ Forall is_byte hostile /\ zlen hostile < 2 ^ 32
  /\ (exists v' s', deserialize 10 Outer rfix (rfix_ops (zlen hostile)) outer_v (rfix_of hostile) = Done (EndOfBuffer, v', s') /\ v' <> outer_v)
  /\ mentions hostile 1 /\ mentions hostile 5 /\ mentions hostile 6
  /\ ~ mentions hostile 2 /\ ~ mentions hostile 3 /\ ~ mentions hostile 4 /\ ~ mentions hostile 7 /\ ~ mentions hostile 8.
Proof.
  split; [exact Outer_ok|]. split; [exact outer_v_wt|]. split; [repeat constructor; unfold is_byte; lia|]. split; [vm_compute; reflexivity|].
  split; [do 2 eexists; split; [vm_compute; reflexivity|]; discriminate|].
  split; [exists [], [8], [6; 50; 1; 136; 45; 1], VARINT; split; [reflexivity|split; [exists [], 8; repeat split; auto; cbn; lia|vm_compute; reflexivity]]|].
  split; [exists [8; 6; 50; 1; 136], [45], [1], FIXED32; split; [reflexivity|split; [exists [], 45; repeat split; auto; cbn; lia|vm_compute; reflexivity]]|].
  split; [exists [8; 6], [50], [1; 136; 45; 1], LENDEL; split; [reflexivity|split; [exists [], 50; repeat split; auto; cbn; lia|vm_compute; reflexivity]]|].
  repeat split; unmentioned.
Qed.

(** Unknown fields only, the last one cut off. *)
Example C84_none_applies : (forall num, In num (field_numbers outer_fields outer_oneofs) -> ~ mentions [80; 1; 93; 2; 3] num)
  /\ exists s', deserialize 10 Outer rfix (rfix_ops 5) outer_v (rfix_of [80; 1; 93; 2; 3]) = Done (EndOfBuffer, outer_v, s').
Proof.
  split; [|eexists; vm_compute; reflexivity].
  intros num H. cbn in H. repeat (destruct H as [<-|H]; [unmentioned|]). contradiction.
Qed.

(** The optional float of an empty object, without its value. *)
Example C84_flags_applies : let s := rfix_of [] in
  (exists v' s', msg_dispatch 10 (dtab 10 outer_fields) (dotab 10 outer_oneofs) 5 FIXED32 (rfix_ops 0) (default_value Outer) s = Done (EndOfBuffer, v', s')
     /\ has_field outer_fields v' 4 = Done true)
  /\ has_field outer_fields (default_value Outer) 4 = Done false.
Proof. split; [do 2 eexists; split; [vm_compute; reflexivity|vm_compute; reflexivity]|vm_compute; reflexivity]. Qed.
