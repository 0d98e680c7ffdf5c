(** Proofs about field objects that are written and read on their own. *)
From Verif Require Import Base Buffers Wire Schema Fields Message Spec SpecRead Contracts SpecSize BitLemmas BufferProofs WriteProofs ScalarProofs SerProofs ReadProofs ReadAny ReadTotal DecodeProofs WireProps SizeProofs.
From Coq Require Import ZifyBool ZifyNat ZifyN Lia.

Lemma scalar_alone sc z : scalar_range sc z ->
  exists bs, serialized_size (serialize (EScalar sc) (VS z)) = Done (zlen bs)
  /\ (forall S (W : wops S) rel exact, writer_ok W rel exact -> emits rel (serialize (EScalar sc) (VS z) S W) bs)
  /\ forall S (R : rops S) rel, reader_ok R rel -> forall v0 s rest fuel, rel s (bs ++ rest) ->
     exists s', deserialize fuel (EScalar sc) S R v0 s = Done (NoErrors, VS z, s') /\ rel s' rest.
Proof.
  intros Hz. exists (scalar_enc sc z). split; [|split].
  - apply (serialized_size_enc (EScalar sc) (VS z)); [exact Hz|exact I|]. cbn [view enc].
    pose proof (scalar_fits sc z Hz). destruct sc; cbn [scalar_max] in *; lia.
  - intros S W rel exact ok. apply wrote_emits. intros. now apply (scalar_serialize_z_wrote ok).
  - intros S R rel ok v0 s rest fuel Hr. destruct (scalar_deserialize_z_dec ok sc _ z rest s (scalar_enc_dec sc z Hz) Hr) as (s' & E & Hs').
    exists s'. cbn [deserialize]. unfold scalar_deserialize. rewrite E. cbn [bind]. auto.
Qed.

(** serialize_with_id of a field object writes what a message with only that field writes. *)
Lemma record_alone t v num S (W : wops S) s :
  elem_serialize_with_id t (serialize t) v num true S W s = serialize (EMsg [(num, KOpt, t)] []) (VM [1] [v] []) S W s.
Proof.
  cbn. destruct (elem_serialize_with_id t (serialize t) v num true S W s) as [[e s']| |]; cbn [bind]; auto.
  destruct e; reflexivity.
Qed.

Lemma list_alone t max v num S (W : wops S) s :
  rep_serialize_with_id t (serialize t) v num false S W s = serialize (EMsg [(num, KRep max, t)] []) (VM [] [v] []) S W s.
Proof.
  cbn. destruct (rep_serialize_with_id t (serialize t) v num false S W s) as [[e s']| |]; cbn [bind]; auto.
  destruct e; reflexivity.
Qed.

Lemma string_alone st max v : let t := EBytes st max in desc_ok t -> wt t v ->
  (forall S (W : wops S) rel exact, writer_ok W rel exact -> forall s c n, rel s c (Some n) -> zlen (enc t (view t v)) < n ->
     exists s', serialize t v S W s = Done (NoErrors, s') /\ rel s' (c ++ enc t (view t v)) (Some (n - zlen (enc t (view t v)))))
  /\ forall S (R : rops S) rel, reader_ok R rel -> forall s, rel s (enc t (view t v)) -> forall v0 fuel,
     exists e v' s', deserialize fuel t S R v0 s = Done (e, v', s') /\ ~ (e = NoErrors /\ view t v' = view t v).
Proof.
  intros t Hd Hw. split.
  - intros S W rel exact ok s c n Hr Hn. destruct v as [| |len data| |]; cbn [t wt] in Hw; try tauto.
    cbn [t view enc] in *. destruct Hw as (Hlen & Hdata & Hb). unfold t in Hd. cbn [desc_ok] in Hd. unfold capacity_ok in Hd.
    assert (Hz : zlen (firstn (Z.to_nat len) data) = len) by (rewrite zlen_firstn; lia). rewrite Hz in *.
    unfold t. cbn [serialize]. unfold bytes_serialize.
    destruct (wo_pushn _ _ _ ok s c data len n Hr) as (b & s' & E & H); [now apply all_Forall'|lia|lia|].
    rewrite E. cbn [bind]. destruct b; [|lia]. exists s'. destruct H as (_ & H). auto.
  - intros S R rel ok s Hr v0 fuel. destruct (bytes_enc_len _ _ _ Hw) as (len & data & -> & El & Hlen). fold t in El.
    set (c := enc t (view t (VB len data))) in *.
    assert (Ec : view t (VB len data) = SvB c) by reflexivity. rewrite Ec.
    pose proof (ro_bytes _ _ ok _ _ Hr) as Hby.
    change (deserialize fuel t) with (bytes_deserialize max). destruct (varint32_total c Hby) as [(h & n & rest & E & (Hv & Hn) & Hn2)|(e & rest & Hv)].
    + assert (Hh : h <> []) by (eapply varint32_nonempty; split; eauto).
      destruct (Z.leb_spec n max) as [Hm|Hm].
      * destruct (Z.leb_spec n (zlen rest)) as [Hle|Hle].
        -- destruct (split_at (Z.to_nat n) rest) as (p & q & -> & Hp); [unfold zlen in *; lia|].
           destruct (bytes_deserialize_full ok st max p h q v0 s) as (v' & s' & E' & _ & (_ & _ & Hview)); auto.
           { unfold zlen in *; lia. } { split; [exact Hv|]. rewrite Hn. unfold zlen in *. lia. } { now rewrite <- E. }
           exists NoErrors, v', s'. split; [exact E'|]. intros (_ & Hx). fold t in Hview. rewrite Hview in Hx. injection Hx as Hx.
           apply (f_equal (@length Z)) in Hx. apply (f_equal (@length Z)) in E. rewrite !app_length in E. destruct h; [congruence|]. cbn [length] in E. fold c in Hx. lia.
        -- destruct (bytes_deserialize_cut ok st max h n rest v0 s) as (v' & s' & E' & _); [exact Hd|split; auto|lia|now rewrite <- E|].
           exists EndOfBuffer, v', s'. split; [exact E'|]. intros ([=] & _).
      * unfold bytes_deserialize. destruct (DeserializeVarint_wf ok 32 h rest s) as (s1 & E1 & _); [now left|exact Hv|now rewrite <- E|].
        rewrite E1. cbn [bind]. rewrite Hn. destruct (Z.leb_spec n max); [lia|]. exists ArrayFull, v0, s1. split; [reflexivity|]. intros ([=] & _).
    + pose proof (varint_fails_err _ _ _ _ Hv) as He. destruct (DeserializeVarint_fails ok 32 c e rest s) as (s1 & E & _); auto; [now left|].
      unfold bytes_deserialize. rewrite E. cbn [bind]. exists e, v0, s1. split; [destruct e; try congruence; reflexivity|]. intros (Hx & _). congruence.
Qed.

Lemma rep_alone v : serialized_size (rep_serialize v) = Done 0 /\ forall S (W : wops S) s, rep_serialize v S W s = Done (BufferFull, s).
Proof. split; reflexivity. Qed.
