(** Lemmas behind the properties of the wire formatter (C01-C09, C48). *)
From Verif Require Import Base Buffers Wire Schema Fields Spec Contracts BitLemmas WriteProofs
  ReadProofs ScalarProofs BufferProofs.
From Coq Require Import ZifyBool ZifyNat ZifyN.
Ltac Zify.zify_post_hook ::= Z.div_mod_to_equations.

Lemma wrote_emits {S} (rel : S -> list Z -> option Z -> Prop) (f : S -> res (err * S)) bs :
  (forall s c room, rel s c room -> wrote rel c room bs True (f s)) -> emits rel f bs.
Proof.
  intros H s c room Hr Hn. destruct (H s c room Hr) as (e & s' & E & [(-> & H1 & _)|(-> & n & pre & suf & Er & _ & _ & _ & _ & Ht)]).
  - exists s'. split; assumption.
  - specialize (Hn n Er). specialize (Ht I). lia.
Qed.

(** ** C01 *)
Lemma varint_round_trip w v : width w -> 0 <= v < 2 ^ w ->
  exists bs,
    (forall S (W : wops S) rel exact, writer_ok W rel exact -> emits rel (SerializeVarint W v) bs)
    /\ (forall S (R : rops S) rel, reader_ok R rel -> reads rel (DeserializeVarint R w) bs v).
Proof.
  intros Hw Hv. exists (varint v). split.
  - intros S W rel exact ok. apply wrote_emits. intros s c room Hr. apply (SerializeVarint_wrote ok); auto.
    destruct Hw; subst w; lia.
  - intros S R rel ok s rest Hr.
    assert (Hvw : varint_wf (vbytes w) (varint v) /\ varint_value (varint v) = v).
    { destruct Hw; subst w; [apply varint_wf32|apply varint_wf64]; assumption. }
    destruct Hvw as (Hwf & Hval).
    destruct (DeserializeVarint_wf ok w _ _ _ Hw Hwf Hr) as (s' & E & H'). exists s'.
    rewrite Hval, Z.mod_small in E by assumption. auto.
Qed.

(** ** C02 *)
Lemma varint_groups_canonical k : forall n, (0 < k)%nat -> 0 <= n < 2 ^ (7 * Z.of_nat k) ->
  exists init last, varint_groups k n = init ++ [last]
    /\ Forall (fun b => 128 <= b < 256) init /\ 0 <= last < 128 /\ (init <> [] -> last <> 0).
Proof.
  induction k as [|k IH]; intros n Hk Hn; [lia|]. cbn [varint_groups].
  destruct (Z.ltb_spec n 128).
  - exists [], n. repeat split; auto; try lia.
  - assert (E : 7 * Z.of_nat (Datatypes.S k) = 7 * Z.of_nat k + 7) by lia.
    rewrite E, Z.pow_add_r in Hn by lia. change (2 ^ 7) with 128 in Hn.
    destruct k as [|k']; [cbn in Hn; lia|].
    destruct (IH (n / 128)) as (init & last & Eg & Hi & Hl & Hnz); [lia|lia|].
    exists ((128 + n mod 128) :: init), last. rewrite Eg. split; [reflexivity|].
    split; [constructor; [lia|assumption]|]. split; [assumption|]. intros _.
    destruct init as [|b init]; [|apply Hnz; discriminate].
    cbn [app] in Eg. destruct k' as [|k'']; cbn [varint_groups] in Eg.
    + destruct (n / 128 <? 128); [injection Eg as <-; lia|].
      pose proof (Z.mod_pos_bound (n / 128) 128 ltac:(lia)) as Hm. 
      assert (El : last = 128 + (n / 128) mod 128) by congruence. lia.
    + destruct (n / 128 <? 128); [injection Eg as <-; lia|].
      destruct (n / 128 / 128 <? 128); discriminate Eg.
Qed.

Lemma varint_groups_len k : forall n, (length (varint_groups k n) <= k)%nat.
Proof. induction k; intros n; cbn [varint_groups length]; [lia|]. destruct (n <? 128); cbn; [lia|]. specialize (IHk (n / 128)). lia. Qed.

Lemma varint_canonical v : 0 <= v < 2 ^ 64 ->
  exists init last,
    (forall S (W : wops S) rel exact, writer_ok W rel exact ->
       emits rel (SerializeVarint W v) (init ++ [last]))
    /\ Forall (fun b => 128 <= b < 256) init /\ 0 <= last < 128
    /\ varint_value (init ++ [last]) = v
    /\ (init <> [] -> last <> 0)
    /\ (length (init ++ [last]) <= 10)%nat /\ (v < 2 ^ 32 -> (length (init ++ [last]) <= 5)%nat).
Proof.
  intros Hv. destruct (varint_groups_canonical 10 v) as (init & last & E & Hi & Hl & Hnz); [lia|cbn; lia|].
  exists init, last. rewrite <- E. change (varint_groups 10 v) with (varint v).
  split; [|split; [assumption|split; [assumption|split; [|split; [assumption|split]]]]].
  - intros S W rel exact ok. apply wrote_emits. intros. now apply (SerializeVarint_wrote ok).
  - apply varint_wf64; assumption.
  - apply varint_groups_len.
  - intros Hv'. unfold varint. rewrite (varint_groups_mono 5 10) by (try lia; cbn; lia). apply varint_groups_len.
Qed.

(** Two canonical encodings of the same number are equal. *)
Lemma canonical_unique : forall i1 l1 i2 l2,
  Forall (fun b => 128 <= b < 256) i1 -> 0 <= l1 < 128 -> (i1 <> [] -> l1 <> 0) ->
  Forall (fun b => 128 <= b < 256) i2 -> 0 <= l2 < 128 -> (i2 <> [] -> l2 <> 0) ->
  varint_value (i1 ++ [l1]) = varint_value (i2 ++ [l2]) -> i1 ++ [l1] = i2 ++ [l2].
Proof.
  assert (Hpos : forall i l, Forall (fun b => 128 <= b < 256) i -> 0 <= l < 128 -> l <> 0 -> 0 < varint_value (i ++ [l])).
  { induction i as [|b i IH]; intros l Hi Hl Hnz; cbn [app varint_value]; [lia|].
    inversion Hi; subst. specialize (IH l H2 Hl Hnz). lia. }
  induction i1 as [|b1 i1 IH]; intros l1 [|b2 i2] l2 H1 Hl1 Hn1 H2 Hl2 Hn2 E; cbn [app varint_value] in *.
  - f_equal. lia.
  - inversion H2; subst. pose proof (Hpos i2 l2 H4 Hl2 (Hn2 ltac:(discriminate))). lia.
  - inversion H1; subst. pose proof (Hpos i1 l1 H4 Hl1 (Hn1 ltac:(discriminate))). lia.
  - inversion H1; inversion H2; subst.
    assert (Eb : b1 = b2) by lia. subst b2. f_equal. apply IH; auto; try lia.
    + intros _. apply Hn1. discriminate.
    + intros _. apply Hn2. discriminate.
Qed.

(** ** C03 *)
Lemma varint_reader_total S (R : rops S) rel w : reader_ok R rel -> width w -> forall s l, rel s l ->
  let k := vbytes w in
  (exists bs rest s', l = bs ++ rest /\ varint_wf k bs
     /\ DeserializeVarint R w s = Done (NoErrors, Some (varint_value bs mod 2 ^ w), s') /\ rel s' rest)
  \/ (exists hd rest s', l = hd ++ rest /\ length hd = k /\ Forall (fun b => 128 <= b < 256) hd
     /\ DeserializeVarint R w s = Done (OverlongVarint, None, s') /\ rel s' rest)
  \/ (exists s', (length l < k)%nat /\ Forall (fun b => 128 <= b < 256) l
     /\ DeserializeVarint R w s = Done (EndOfBuffer, None, s') /\ rel s' []).
Proof.
  intros ok Hw s l Hr k. pose proof (ro_bytes _ _ ok _ _ Hr) as Hb.
  destruct (varint_trichotomy k l Hb) as [(bs & rest & -> & Hwf)|[(hd & rest & -> & Hl & Hc)|(Hl & Hc)]].
  - left. destruct (DeserializeVarint_wf ok w bs rest s Hw Hwf Hr) as (s' & E & H').
    exists bs, rest, s'. auto.
  - right; left. destruct (DeserializeVarint_over ok w hd rest s Hw Hc Hl Hr) as (s' & E & H').
    exists hd, rest, s'. auto 6.
  - right; right. destruct (DeserializeVarint_end ok w l s Hw Hc Hl Hr) as (s' & E & H'). exists s'. auto.
Qed.

(** ** C05 *)
Lemma fixed_round_trip k v : (k = 4 \/ k = 8)%nat -> 0 <= v < 2 ^ (8 * Z.of_nat k) ->
  (forall S (W : wops S) rel exact, writer_ok W rel exact ->
     emits rel (SerializeFixedNoTag W (8 * Z.of_nat k) v) (le k v))
  /\ length (le k v) = k /\ le_value (le k v) = v
  /\ (forall S (R : rops S) rel, reader_ok R rel ->
       reads rel (DeserializeFixed R (8 * Z.of_nat k)) (le k v) v
       /\ forall s l, rel s l -> (length l < k)%nat ->
            exists s', DeserializeFixed R (8 * Z.of_nat k) s = Done (EndOfBuffer, None, s') /\ rel s' []).
Proof.
  intros Hk Hv. split; [|split; [apply le_length|split; [now apply le_le_value|]]].
  - intros S W rel exact ok. apply wrote_emits. intros s c room Hr.
    apply (SerializeFixedNoTag_wrote ok); auto. lia.
  - intros S R rel ok. split.
    + intros s rest Hr.
      destruct (DeserializeFixed_full ok (8 * Z.of_nat k) (le k v) rest s) as (s' & E & H'); auto.
      * unfold zlen. now rewrite le_length.
      * apply le_bytes.
      * exists s'. rewrite le_le_value in E by assumption. auto.
    + intros s l Hr Hl. apply (DeserializeFixed_short ok) with (l := l); auto.
      * unfold zlen. lia.
      * rewrite Z.mul_comm. apply Z.mod_mul. lia.
Qed.

(** ** C06 *)
Lemma tag_round_trip num w : 1 <= num < 2 ^ 29 ->
  exists bs,
    (forall S (W : wops S) rel exact, writer_ok W rel exact ->
       emits rel (SerializeVarint W (MakeTag num w)) bs)
    /\ (forall S (R : rops S) rel, reader_ok R rel -> reads rel (DeserializeTag R) bs (w, num)).
Proof.
  intros Hn. exists (varint (num * 8 + wt_code w)). pose proof (wt_code_range w). split.
  - intros S W rel exact ok. apply wrote_emits. intros s c room Hr. rewrite MakeTag_spec by lia.
    apply (SerializeVarint_wrote ok); auto. lia.
  - intros S R rel ok s rest Hr. eapply (DeserializeTag_wf ok); eauto; [|lia].
    apply varint_varint32. lia.
Qed.

Lemma tag_reader_rejects S (R : rops S) rel : reader_ok R rel -> forall s l, rel s l ->
  (forall bs rest, l = bs ++ rest -> varint_wf 5 bs -> 6 <= varint_value bs mod 8 ->
     exists s', DeserializeTag R s = Done (InvalidWiretype, None, s') /\ rel s' rest)
  /\ (forall e s', DeserializeVarint R 32 s = Done (e, None, s') -> DeserializeTag R s = Done (e, None, s')).
Proof.
  intros ok s l Hr. split.
  - intros bs rest -> Hwf H6.
    destruct (DeserializeVarint_wf ok 32 bs rest s (or_introl eq_refl) Hwf Hr) as (s' & E & H').
    exists s'. unfold DeserializeTag. rewrite E. cbn [bind]. rewrite land_7.
    pose proof (varint_value_nonneg bs).
    assert (Em : (varint_value bs mod 2 ^ 32) mod 8 = varint_value bs mod 8) by lia.
    rewrite Em. destruct (Z.leb_spec (varint_value bs mod 8) (wt_code FIXED32)); [cbn in *; lia|auto].
  - intros e s' E. unfold DeserializeTag. rewrite E. cbn [bind]. destruct e; reflexivity.
Qed.

(** ** C07 *)
Lemma int32_both_conventions n : - 2 ^ 31 <= n < 0 ->
  exists short long : list Z, length short = 5%nat /\ length long = 10%nat
  /\ varint_value long = n mod 2 ^ 64
  /\ (forall S (W : wops S) rel exact, writer_ok W rel exact ->
        emits rel (scalar_serialize_z Int32 n W) short /\ emits rel (scalar_serialize_z Int64 n W) long)
  /\ (forall S (R : rops S) rel, reader_ok R rel ->
        reads rel (scalar_deserialize_z Int32 R) short n /\ reads rel (scalar_deserialize_z Int32 R) long n).
Proof.
  intros Hn. exists (varint (n mod 2 ^ 32)), (varint (n mod 2 ^ 64)).
  assert (Hm32 : n mod 2 ^ 32 = n + 2 ^ 32) by lia. assert (Hm64 : n mod 2 ^ 64 = n + 2 ^ 64) by lia.
  assert (Hlen : forall k m, (0 < k)%nat -> 2 ^ (7 * Z.of_nat k) <= m -> (k < length (varint_groups 10 m))%nat \/ (10 <= k)%nat).
  { intros k m Hk Hm. destruct (Nat.le_gt_cases 10 k); [now right|left].
    assert (G : forall j i m, (i < j)%nat -> 2 ^ (7 * Z.of_nat i) <= m -> (i < length (varint_groups j m))%nat).
    { induction j as [|j IH]; intros i m' Hi Hm'; [lia|]. cbn [varint_groups].
      destruct (Z.ltb_spec m' 128).
      - destruct i; cbn [length]; [lia|]. exfalso.
        assert (2 ^ 7 <= 2 ^ (7 * Z.of_nat (Datatypes.S i))) by (apply Z.pow_le_mono_r; lia). lia.
      - cbn [length]. destruct i; [lia|]. apply -> Nat.succ_lt_mono. apply IH; [lia|].
        replace (7 * Z.of_nat (Datatypes.S i)) with (7 + 7 * Z.of_nat i) in Hm' by lia.
        rewrite Z.pow_add_r in Hm' by lia. change (2 ^ 7) with 128 in Hm'.
        apply Z.div_le_lower_bound; lia. }
    apply G; lia. }
  split; [|split; [|split; [|split]]].
  - pose proof (varint_groups_len 5 (n mod 2 ^ 32)). pose proof (varint_groups_mono 5 10 (n mod 2 ^ 32)).
    destruct (Hlen 4%nat (n mod 2 ^ 32)) as [Hg|?]; [lia|cbn; lia| |lia].
    unfold varint in *. rewrite H0 in * by (try lia; cbn; lia). lia.
  - destruct (Hlen 9%nat (n mod 2 ^ 64)) as [Hg|?]; [lia|cbn; lia| |lia].
    pose proof (varint_groups_len 10 (n mod 2 ^ 64)). unfold varint. lia.
  - apply varint_wf64. lia.
  - intros S W rel exact ok. split; apply wrote_emits; intros s c room Hr.
    + apply (scalar_serialize_z_wrote ok Int32); auto. cbn [scalar_range]. lia.
    + apply (scalar_serialize_z_wrote ok Int64); auto. cbn [scalar_range]. lia.
  - intros S R rel ok. split; intros s rest Hr.
    + apply (scalar_deserialize_z_dec ok Int32 (varint (n mod 2 ^ 32))); [|exact Hr].
      apply (scalar_enc_dec Int32). cbn [scalar_range]. lia.
    + apply (scalar_deserialize_z_dec ok Int32 (varint (n mod 2 ^ 64))); [|exact Hr].
      cbn [scalar_dec]. destruct (varint_wf64 (n mod 2 ^ 64)) as (H1 & H2); [lia|].
      split; [exact H1|]. rewrite H2. unfold to_signed. rewrite Hm64.
      assert (E : (n + 2 ^ 64) mod 2 ^ 32 = n + 2 ^ 32) by lia. rewrite E.
      destruct (Z.ltb_spec (n + 2 ^ 32) (2 ^ (32 - 1))); lia.
Qed.

(** ** C08 *)
Lemma scalar_round_trip sc z : scalar_range sc z ->
  exists bs,
    (forall S (W : wops S) rel exact, writer_ok W rel exact -> emits rel (scalar_serialize_z sc z W) bs)
    /\ (forall S (R : rops S) rel, reader_ok R rel -> reads rel (scalar_deserialize_z sc R) bs z).
Proof.
  intros Hz. exists (scalar_enc sc z). split.
  - intros S W rel exact ok. apply wrote_emits. intros. now apply (scalar_serialize_z_wrote ok).
  - intros S R rel ok s rest Hr. eapply (scalar_deserialize_z_dec ok); eauto using scalar_enc_dec.
Qed.

(** ** C09 *)
Lemma bool_one_byte b : 0 <= b < 128 -> forall S (R : rops S) rel, reader_ok R rel ->
  reads rel (DeserializeBool R) [b] (if b =? 0 then 0 else 1).
Proof.
  intros Hb S R rel ok s rest Hr. cbn [app] in Hr.
  destruct (ro_pop_cons _ _ ok _ _ _ Hr) as (s' & E & H'). exists s'. unfold DeserializeBool. rewrite E. auto.
Qed.

Lemma bool_two_bytes : ~ (forall bs, varint_wf 10 bs -> forall S (R : rops S) rel, reader_ok R rel ->
  reads rel (DeserializeBool R) bs (if varint_value bs =? 0 then 0 else 1)).
Proof.
  intros H. assert (Hw : varint_wf 10 [129; 0]).
  { exists [129], 0. repeat split; try (cbn; lia). repeat constructor; lia. }
  specialize (H _ Hw _ _ _ (rfix_ok 2) (rfix_of [129; 0]) []).
  destruct H as (s' & E & H'); [apply (rfix_of_rel [129; 0]); [cbn; lia|repeat constructor; lia]|].
  vm_compute in E. injection E as <-. destruct H' as (_ & _ & _ & _ & _ & H'). vm_compute in H'. discriminate H'.
Qed.

(** ** C48 *)
(** The public function of WireFormatter for each scalar type (src/WireFormatter.h:196-320). *)
Definition raw_serialize (sc : scalar) {S} (W : wops S) (num z : Z) : S -> res (err * S) :=
  match sc with
  | Int32 => SerializeInt W 32 num z
  | Int64 => SerializeInt W 64 num z
  | UInt32 | UInt64 => SerializeUInt W num z
  | SInt32 => SerializeSInt W 32 num z
  | SInt64 => SerializeSInt W 64 num z
  | Boolean => SerializeBool W num z
  | Enumeration => SerializeEnum W num z
  | Fixed32 => SerializeFixed32 W num z
  | Fixed64 => SerializeFixed64 W num z
  | SFixed32 => SerializeSFixed32 W num z
  | SFixed64 => SerializeSFixed64 W num z
  | FloatFixed => SerializeFloat W num z
  | DoubleFixed => SerializeDouble W num z
  end.

Lemma raw_equals_field sc num z : scalar_range sc z -> 1 <= num < 2 ^ 29 ->
  (forall S (W : wops S) s, raw_serialize sc W num z s = scalar_serialize_with_id sc (VS z) num S W s)
  /\ (forall S (W : wops S) rel exact, writer_ok W rel exact ->
        emits rel (raw_serialize sc W num z) (tag num (scalar_wiretype sc) ++ scalar_enc sc z)).
Proof.
  intros Hz Hn.
  assert (E : forall S (W : wops S) s, raw_serialize sc W num z s = scalar_serialize_with_id sc (VS z) num S W s).
  { intros S W s. destruct sc; try reflexivity. cbn [scalar_range] in Hz.
    unfold scalar_serialize_with_id, scalar_serialize. cbn [raw_serialize scalar_wiretype scalar_serialize_z].
    rewrite u32_small by lia. reflexivity. }
  split; [exact E|]. intros S W rel exact ok. apply wrote_emits. intros s c room Hr. rewrite E.
  unfold scalar_serialize_with_id. apply (with_tag_wrote ok); auto; [lia|].
  intros s' c' room' Hr'. unfold scalar_serialize. now apply (scalar_serialize_z_wrote ok).
Qed.

Lemma enum_reader : forall S (R : rops S) rel, reader_ok R rel -> forall s l, rel s l ->
  (exists bs rest s', l = bs ++ rest /\ varint_wf 10 bs
     /\ DeserializeEnum R s = Done (NoErrors, Some (varint_value bs mod 2 ^ 32), s') /\ rel s' rest)
  \/ (exists hd rest s', l = hd ++ rest /\ length hd = 10%nat /\ Forall (fun b => 128 <= b < 256) hd
     /\ DeserializeEnum R s = Done (OverlongVarint, None, s') /\ rel s' rest)
  \/ (exists s', (length l < 10)%nat /\ Forall (fun b => 128 <= b < 256) l
     /\ DeserializeEnum R s = Done (EndOfBuffer, None, s') /\ rel s' []).
Proof.
  intros S R rel ok s l Hs. unfold DeserializeEnum.
  destruct (varint_reader_total S R rel 64 ok (or_intror eq_refl) s l Hs)
    as [(bs & rest & s' & E1 & E2 & E & H)|[(hd & rest & s' & E1 & E2 & E3 & E & H)|(s' & E1 & E2 & E & H)]]; rewrite E; cbn [bind option_map].
  - left. exists bs, rest, s'. repeat split; auto. unfold u32. do 4 f_equal. 
    rewrite <- (Znumtheory.Zmod_div_mod (2 ^ 32) (2 ^ 64)); [reflexivity|reflexivity|reflexivity|]. now exists (2 ^ 32).
  - right; left. exists hd, rest, s'. auto.
  - right; right. exists s'. auto.
Qed.

(** The sample buffers used in examples. *)
Lemma varint_wf_sample : varint_wf 5 [172; 2].
Proof. exists [172], 2. repeat split; try (cbn; lia). repeat constructor; lia. Qed.

(** ** C04 *)
Lemma zigzag_bijection w : w = 32 \/ w = 64 ->
  (forall n, - 2 ^ (w - 1) <= n < 2 ^ (w - 1) ->
     ZigZagEncode w n = (if 0 <=? n then 2 * n else - 2 * n - 1)
     /\ ZigZagDecode w (ZigZagEncode w n) = n)
  /\ (forall u, 0 <= u < 2 ^ w ->
     - 2 ^ (w - 1) <= ZigZagDecode w u < 2 ^ (w - 1) /\ ZigZagEncode w (ZigZagDecode w u) = u).
Proof.
  intros Hw. assert (H0 : 0 < w) by (destruct Hw; subst; lia). split.
  - intros n Hn. rewrite ZigZagEncode_spec by assumption. split.
    + unfold zigzag. destruct (0 <=? n); lia.
    + pose proof (zigzag_range w n H0 Hn). rewrite ZigZagDecode_spec by assumption. apply unzigzag_zigzag.
  - intros u Hu. rewrite ZigZagDecode_spec by assumption. pose proof (unzigzag_range w u H0 Hu).
    split; [assumption|]. rewrite ZigZagEncode_spec by assumption. apply zigzag_unzigzag. lia.
Qed.
