(** Reading a scalar as another type. *)
From Verif Require Import Base Buffers Wire Schema Fields Spec Contracts BitLemmas
  ReadProofs WriteProofs ScalarProofs WireProps SpecRead ReadAny SpecRetype.
From Coq Require Import ZifyBool ZifyNat ZifyN.
Ltac Zify.zify_post_hook ::= Z.div_mod_to_equations.

Lemma varint_wf35 n : 0 <= n < 2 ^ 35 -> varint_wf 5 (varint n) /\ varint_value (varint n) = n.
Proof.
  intros H. unfold varint. rewrite (varint_groups_mono 5 10 n) by (cbn; lia). apply varint_groups_wf; cbn; lia.
Qed.

Lemma to_signed_mod_mod w w' n : 0 < w <= w' -> to_signed w (n mod 2 ^ w') = to_signed w n.
Proof.
  intros H. rewrite <- (to_signed_mod w (n mod 2 ^ w')), <- (to_signed_mod w n). f_equal.
  assert (E : 2 ^ w' = 2 ^ w * 2 ^ (w' - w)) by (rewrite <- Z.pow_add_r by lia; f_equal; lia). rewrite E.
  assert (0 < 2 ^ w) by (apply Z.pow_pos_nonneg; lia). assert (0 < 2 ^ (w' - w)) by (apply Z.pow_pos_nonneg; lia).
  rewrite Z.rem_mul_r by lia. rewrite Z.mul_comm, Z.mod_add by lia. apply Z.mod_mod. lia.
Qed.

Lemma retype_dec sc sc' z : interchangeable sc sc' -> scalar_range sc z -> promised sc sc' z ->
  ~ loses_sign sc sc' z -> ~ too_large sc sc' z -> ~ not_one_byte sc sc' z ->
  scalar_dec sc' (scalar_enc sc z) (cast sc' z).
Proof.
  intros Hi Hz Hp H1 H2 H3. unfold not_one_byte in H3.
  destruct sc, sc'; try discriminate Hi; cbn [scalar_range scalar_enc scalar_dec cast promised loses_sign too_large] in *.
  all: match goal with
       | |- varint_wf 10 (varint ?n) /\ _ => destruct (varint_wf64 n) as (Hw & Hv); [|split; [exact Hw|rewrite Hv]]
       | |- varint_wf 5 (varint ?n) /\ _ => destruct (varint_wf35 n) as (Hw & Hv); [|split; [exact Hw|rewrite Hv]]
       | |- varint_wf 1 (varint ?n) /\ _ => rewrite varint_small; [split; [exists [], n; cbn; repeat split; auto|cbn [varint_value]]|]
       | |- length (le ?k ?n) = _ /\ _ => split; [apply le_length|]; split; [apply le_bytes|]; rewrite le_le_value
       end.
  all: try match goal with |- 0 <= zigzag ?n < _ => unfold zigzag; destruct (Z.leb_spec 0 n); lia end.
  all: try solve [cbn; lia | auto].
  all: try solve [unfold unzigzag, zigzag, to_signed; change (2 ^ (32 - 1)) with (2 ^ 31) in *; change (2 ^ (64 - 1)) with (2 ^ 63) in *;
       repeat match goal with
       | |- context [?a <=? ?b] => destruct (Z.leb_spec a b)
       | |- context [?a <? ?b] => destruct (Z.ltb_spec a b)
       | |- context [?a =? ?b] => destruct (Z.eqb_spec a b)
       end; lia].
  all: assert (H4 : ~ (z < 0 \/ 128 <= z)) by (intros H; apply H3; auto); repeat match goal with
       | |- context [?a =? ?b] => destruct (Z.eqb_spec a b)
       end; lia.
Qed.

Lemma always_kept_ok sc sc' z : always_kept sc sc' = true -> scalar_range sc z -> scalar_dec sc' (scalar_enc sc z) (cast sc' z).
Proof.
  intros Hk Hz. apply retype_dec; auto.
  - destruct sc, sc'; try discriminate; reflexivity.
  - destruct sc, sc'; try discriminate; exact I.
  - destruct sc, sc'; try discriminate; exact (fun H => H).
  - destruct sc, sc'; try discriminate; exact (fun H => H).
  - unfold not_one_byte. intros [-> H]. destruct sc; try discriminate. cbn in Hz. lia.
Qed.

(** What happens in the three cases. *)
Lemma retype_sign z : - 2 ^ 31 <= z < 0 ->
  scalar_dec Int64 (scalar_enc Int32 z) (z + 2 ^ 32) /\ scalar_dec UInt64 (scalar_enc Int32 z) (z + 2 ^ 32).
Proof.
  intros Hz. cbn [scalar_enc scalar_dec]. destruct (varint_wf64 (z mod 2 ^ 32)) as (Hw & Hv); [lia|]. rewrite Hv.
  replace (z mod 2 ^ 32) with (z + 2 ^ 32) in * by lia. split; split; auto.
  - symmetry. apply to_signed_small; cbn; lia.
  - symmetry. apply Z.mod_small. lia.
Qed.

Lemma varint_long n : 2 ^ 35 <= n < 2 ^ 64 -> exists a b, varint n = a ++ b /\ length a = 5%nat /\ b <> [] /\ Forall (fun b => 128 <= b < 256) a.
Proof.
  intros H. unfold varint. do 5 (cbn [varint_groups]; match goal with |- context [?x <? 128] => destruct (Z.ltb_spec x 128); [exfalso; lia|] end).
  match goal with |- context [?x1 :: ?x2 :: ?x3 :: ?x4 :: ?x5 :: ?r] => exists [x1; x2; x3; x4; x5], r end.
  split; [reflexivity|]. split; [reflexivity|]. split.
  - destruct (_ <? 128); discriminate.
  - repeat first [apply Forall_cons|apply Forall_nil]; lia.
Qed.

Lemma scalar_written sc z : scalar_range sc z -> forall S (W : wops S) rel exact, writer_ok W rel exact ->
  emits rel (scalar_serialize_z sc z W) (scalar_enc sc z).
Proof. intros Hz S W rel exact ok. apply wrote_emits. intros. now apply (scalar_serialize_z_wrote ok). Qed.

Lemma retype_kept : forall sc sc' z, interchangeable sc sc' -> scalar_range sc z -> promised sc sc' z ->
  ~ loses_sign sc sc' z -> ~ too_large sc sc' z -> ~ not_one_byte sc sc' z ->
  exists bs, (forall S (W : wops S) rel exact, writer_ok W rel exact -> emits rel (scalar_serialize_z sc z W) bs)
    /\ (forall S (R : rops S) rel, reader_ok R rel -> reads rel (scalar_deserialize_z sc' R) bs (cast sc' z)).
Proof.
  intros sc sc' z Hi Hz Hp H1 H2 H3. exists (scalar_enc sc z). split; [now apply scalar_written|].
  intros S R rel ok s rest Hr. eapply (scalar_deserialize_z_dec ok); eauto. now apply retype_dec.
Qed.

Lemma retype_loses_sign : forall z, - 2 ^ 31 <= z < 0 ->
  exists bs, (forall S (W : wops S) rel exact, writer_ok W rel exact -> emits rel (scalar_serialize_z Int32 z W) bs)
    /\ (forall S (R : rops S) rel, reader_ok R rel ->
          reads rel (scalar_deserialize_z Int64 R) bs (z + 2 ^ 32) /\ reads rel (scalar_deserialize_z UInt64 R) bs (z + 2 ^ 32))
    /\ z + 2 ^ 32 <> cast Int64 z /\ z + 2 ^ 32 <> cast UInt64 z.
Proof.
  intros z Hz. exists (scalar_enc Int32 z). destruct (retype_sign z Hz) as [H1 H2]. split; [apply scalar_written; cbn; lia|]. split.
  - intros S R rel ok. split; intros s rest Hr; eapply (scalar_deserialize_z_dec ok); eauto.
  - cbn [cast]. rewrite to_signed_small by (cbn; lia). lia.
Qed.

Lemma retype_too_large : forall sc sc' z, scalar_range sc z -> too_large sc sc' z ->
  exists bs left, (forall S (W : wops S) rel exact, writer_ok W rel exact -> emits rel (scalar_serialize_z sc z W) (bs ++ left))
    /\ left <> []
    /\ (forall S (R : rops S) rel, reader_ok R rel -> forall s rest, rel s (bs ++ left ++ rest) ->
          exists s', scalar_deserialize_z sc' R s = Done (OverlongVarint, None, s') /\ rel s' (left ++ rest)).
Proof.
  intros sc sc' z Hz Ht.
  assert (E : exists n, scalar_enc sc z = varint n /\ 2 ^ 35 <= n < 2 ^ 64).
  { destruct sc, sc'; try contradiction; cbn [scalar_enc scalar_range too_large] in *; eexists; (split; [reflexivity|lia]). }
  destruct E as (n & E & Hn). destruct (varint_long n Hn) as (a & b & Eab & Ha & Hb & Hf). exists a, b.
  rewrite <- Eab, <- E. split; [now apply scalar_written|]. split; [exact Hb|].
  intros S R rel ok s rest Hr. eapply (scalar_deserialize_z_fails ok); eauto.
  destruct sc, sc'; try contradiction; apply scalar_fails_varint; try reflexivity; try discriminate; now apply varint_overlong.
Qed.

Lemma retype_bool : forall sc z, interchangeable sc Boolean -> scalar_range sc z -> not_one_byte sc Boolean z ->
  exists b left, (forall S (W : wops S) rel exact, writer_ok W rel exact -> emits rel (scalar_serialize_z sc z W) (b :: left))
    /\ left <> []
    /\ (forall S (R : rops S) rel, reader_ok R rel -> forall s rest, rel s (b :: left ++ rest) ->
          exists s', scalar_deserialize_z Boolean R s = Done (NoErrors, Some 1, s') /\ rel s' (left ++ rest)).
Proof.
  intros sc z Hi Hz [_ Ht].
  assert (E : exists n, scalar_enc sc z = varint n /\ 128 <= n < 2 ^ 64).
  { destruct sc; try discriminate; cbn [scalar_enc scalar_range] in *; eexists; (split; [reflexivity|lia]). }
  destruct E as (n & E & Hn).
  assert (Eb : exists l, varint n = (128 + n mod 128) :: l /\ l <> []).
  { unfold varint. cbn [varint_groups]. destruct (Z.ltb_spec n 128); [lia|]. eexists. split; [reflexivity|]. destruct (_ <? 128); discriminate. }
  destruct Eb as (l & Eb & Hl). exists (128 + n mod 128), l. rewrite <- Eb, <- E. split; [now apply scalar_written|]. split; [exact Hl|].
  intros S R rel ok s rest Hr. apply (scalar_deserialize_z_reads ok Boolean [128 + n mod 128] 1 (l ++ rest) s); [|exact Hr].
  apply scalar_reads_bool; [reflexivity|lia].
Qed.
