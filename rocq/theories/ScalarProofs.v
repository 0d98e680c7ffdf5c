(** ZigZag, and the 14 scalar types. *)
From Verif Require Import Base Buffers Wire Schema Fields Spec Contracts BitLemmas WriteProofs ReadProofs.
From Coq Require Import ZifyBool ZifyNat ZifyN.
Ltac Zify.zify_post_hook ::= Z.div_mod_to_equations.

Lemma lxor_ones x w : 0 <= w -> 0 <= x < 2 ^ w -> Z.lxor x (2 ^ w - 1) = 2 ^ w - 1 - x.
Proof.
  intros Hw Hx. rewrite <- Z.sub_1_r with (n := 2 ^ w) || idtac.
  assert (E : 2 ^ w - 1 = Z.ones w) by (rewrite Z.ones_equiv; lia). rewrite E.
  assert (Hd : Z.ldiff x (Z.ones w) = 0).
  { apply Z.bits_inj'. intros n Hn. rewrite Z.ldiff_spec, Z.bits_0.
    destruct (Z.lt_ge_cases n w).
    - rewrite Z.ones_spec_low by lia. apply andb_false_r.
    - rewrite (testbit_small x w n) by lia. reflexivity. }
  rewrite Z.sub_nocarry_ldiff by exact Hd.
  apply Z.bits_inj'. intros n Hn. rewrite Z.lxor_spec, Z.ldiff_spec.
  destruct (Z.lt_ge_cases n w).
  - rewrite Z.ones_spec_low by lia. now destruct (Z.testbit x n).
  - rewrite Z.ones_spec_high by lia. rewrite (testbit_small x w n) by lia. reflexivity.
Qed.

Lemma pow_split w : 0 < w -> 2 ^ w = 2 * 2 ^ (w - 1) /\ 0 < 2 ^ (w - 1).
Proof.
  intros H. split.
  - replace w with (1 + (w - 1)) at 1 by lia. rewrite Z.pow_add_r by lia. lia.
  - apply Z.pow_pos_nonneg; lia.
Qed.

Lemma ZigZagEncode_spec w n : 0 < w -> - 2 ^ (w - 1) <= n < 2 ^ (w - 1) -> ZigZagEncode w n = zigzag n.
Proof.
  intros Hw Hn. destruct (pow_split w Hw) as (Hp & Hpos). unfold ZigZagEncode, zigzag, uw.
  rewrite Z.shiftl_mul_pow2, Z.shiftr_div_pow2 by lia. change (2 ^ 1) with 2.
  destruct (Z.leb_spec 0 n).
  - rewrite (Z.mod_small n) by lia. rewrite (Z.mod_small (n * 2)) by lia.
    rewrite (Z.div_small n) by lia. rewrite Z.mod_0_l by lia. rewrite Z.lxor_0_r. lia.
  - replace (n / 2 ^ (w - 1)) with (-1) by (apply Z.div_unique with (n + 2 ^ (w - 1)); lia).
    replace (-1 mod 2 ^ w) with (2 ^ w - 1) by (apply Z.mod_unique with (-1); lia).
    replace (n mod 2 ^ w) with (n + 2 ^ w) by (apply Z.mod_unique with (-1); lia).
    replace (((n + 2 ^ w) * 2) mod 2 ^ w) with (2 * n + 2 ^ w) by (apply Z.mod_unique with 1; lia).
    rewrite lxor_ones by lia. lia.
Qed.

Lemma ZigZagDecode_spec w n : 0 < w -> 0 <= n < 2 ^ w -> ZigZagDecode w n = unzigzag n.
Proof.
  intros Hw Hn. destruct (pow_split w Hw) as (Hp & Hpos). unfold ZigZagDecode, unzigzag.
  rewrite Z.shiftr_div_pow2, land_1 by lia. change (2 ^ 1) with 2.
  destruct (Z.eqb_spec (n mod 2) 0) as [E|E].
  - rewrite E. change (Z.lnot 0) with (-1). unfold uw.
    replace (-1 mod 2 ^ w) with (2 ^ w - 1) by (apply Z.mod_unique with (-1); lia).
    replace (2 ^ w - 1 + 1) with (2 ^ w) by lia. rewrite Z.mod_same by lia. rewrite Z.lxor_0_r.
    unfold sw. rewrite Z.mod_small by lia. destruct (Z.ltb_spec (n / 2) (2 ^ (w - 1))); lia.
  - assert (E1 : n mod 2 = 1) by lia. rewrite E1. change (Z.lnot 1) with (-2). unfold uw.
    replace (-2 mod 2 ^ w) with (2 ^ w - 2) by (apply Z.mod_unique with (-1); lia).
    rewrite Z.mod_small by lia. replace (2 ^ w - 2 + 1) with (2 ^ w - 1) by lia.
    rewrite lxor_ones by lia. unfold sw. rewrite Z.mod_small by lia.
    destruct (Z.ltb_spec (2 ^ w - 1 - n / 2) (2 ^ (w - 1))); lia.
Qed.

Lemma unzigzag_zigzag n : unzigzag (zigzag n) = n.
Proof.
  unfold unzigzag, zigzag. destruct (Z.leb_spec 0 n).
  - destruct (Z.eqb_spec ((2 * n) mod 2) 0); lia.
  - destruct (Z.eqb_spec ((- (2 * n) - 1) mod 2) 0); lia.
Qed.
Lemma zigzag_unzigzag n : 0 <= n -> zigzag (unzigzag n) = n.
Proof.
  intros H. unfold unzigzag, zigzag. destruct (Z.eqb_spec (n mod 2) 0).
  - destruct (Z.leb_spec 0 (n / 2)); lia.
  - destruct (Z.leb_spec 0 (- ((n + 1) / 2))); lia.
Qed.
Lemma zigzag_range w n : 0 < w -> - 2 ^ (w - 1) <= n < 2 ^ (w - 1) -> 0 <= zigzag n < 2 ^ w.
Proof. intros Hw Hn. destruct (pow_split w Hw). unfold zigzag. destruct (Z.leb_spec 0 n); lia. Qed.
Lemma unzigzag_range w n : 0 < w -> 0 <= n < 2 ^ w -> - 2 ^ (w - 1) <= unzigzag n < 2 ^ (w - 1).
Proof. intros Hw Hn. destruct (pow_split w Hw). unfold unzigzag. destruct (Z.eqb_spec (n mod 2) 0); lia. Qed.

Lemma to_signed_mod w n : to_signed w (n mod 2 ^ w) = to_signed w n.
Proof.
  unfold to_signed. destruct (Z.eq_dec (2 ^ w) 0) as [E|E].
  - rewrite E. now rewrite !Zmod_0_r.
  - now rewrite Z.mod_mod.
Qed.
Lemma to_signed_small w n : 0 < w -> - 2 ^ (w - 1) <= n < 2 ^ (w - 1) -> to_signed w n = n.
Proof.
  intros Hw Hn. destruct (pow_split w Hw). unfold to_signed. destruct (Z.lt_ge_cases n 0).
  - replace (n mod 2 ^ w) with (n + 2 ^ w) by (apply Z.mod_unique with (-1); lia).
    destruct (Z.ltb_spec (n + 2 ^ w) (2 ^ (w - 1))); lia.
  - rewrite Z.mod_small by lia. destruct (Z.ltb_spec n (2 ^ (w - 1))); lia.
Qed.
Lemma to_signed_range w n : 0 < w -> - 2 ^ (w - 1) <= to_signed w n < 2 ^ (w - 1).
Proof.
  intros Hw. destruct (pow_split w Hw). unfold to_signed.
  pose proof (Z.mod_pos_bound n (2 ^ w) ltac:(lia)).
  destruct (Z.ltb_spec (n mod 2 ^ w) (2 ^ (w - 1))); lia.
Qed.
Lemma sw_to_signed w n : sw w n = to_signed w n.
Proof. reflexivity. Qed.

(** Writing. *)
Section W.
Context {S : Type} {W : wops S} {rel : S -> list Z -> option Z -> Prop} {exact : Prop}
        (ok : writer_ok W rel exact).

Lemma varint_small b : 0 <= b < 128 -> varint b = [b].
Proof. intros. unfold varint. cbn [varint_groups]. destruct (Z.ltb_spec b 128); [reflexivity|lia]. Qed.

Lemma scalar_serialize_z_wrote sc z s c room : scalar_range sc z -> rel s c room ->
  wrote rel c room (scalar_enc sc z) True (scalar_serialize_z sc z W s).
Proof.
  intros Hz H. destruct sc; cbn [scalar_serialize_z scalar_enc scalar_range] in *;
    unfold SerialzieSFixedNoTag, SerialzieFloatNoTag, SerialzieDoubleNoTag, u32, u64, uw.
  1, 2, 8: apply (SerializeVarint_wrote ok); [|exact H]; lia.
  1, 2: apply (SerializeVarint_wrote ok); [|exact H]; lia.
  1, 2: rewrite ZigZagEncode_spec by (cbn; lia); apply (SerializeVarint_wrote ok); [|exact H];
        match goal with |- 0 <= zigzag _ < _ => unfold zigzag end;
        destruct (Z.leb_spec 0 z); lia.
  2: apply (SerializeFixedNoTag_wrote ok); [reflexivity|lia|exact H].
  2: apply (SerializeFixedNoTag_wrote ok); [reflexivity|lia|exact H].
  2: apply (SerializeFixedNoTag_wrote ok); [reflexivity|lia|exact H].
  2: apply (SerializeFixedNoTag_wrote ok); [reflexivity|lia|exact H].
  2: apply (SerializeFixedNoTag_wrote ok); [reflexivity|lia|exact H].
  2: apply (SerializeFixedNoTag_wrote ok); [reflexivity|lia|exact H].
  unfold push_bool. destruct Hz as [->| ->]; cbn [Z.eqb]; rewrite varint_small by lia;
    apply (wrote_push ok); auto; unfold is_byte; lia.
Qed.

End W.

(** Reading. *)
Section R.
Context {S : Type} {R : rops S} {rel : S -> list Z -> Prop} (ok : reader_ok R rel).

Lemma varint_wf_1 bs : varint_wf 1 bs -> exists b, bs = [b] /\ 0 <= b < 128 /\ varint_value bs = b.
Proof.
  intros (init & last & -> & Hl & Hf & Hb). destruct init as [|x init].
  - exists last. cbn [app varint_value]. repeat split; try lia.
  - rewrite app_length in Hl. cbn in Hl. lia.
Qed.

Lemma scalar_deserialize_z_dec sc bs z rest s : scalar_dec sc bs z -> rel s (bs ++ rest) ->
  exists s', scalar_deserialize_z sc R s = Done (NoErrors, Some z, s') /\ rel s' rest.
Proof.
  intros Hd Hr. destruct sc; cbn [scalar_deserialize_z scalar_dec] in *;
    unfold DeserializeUInt, DeserializeFloat, DeserializeDouble, DeserializeSFixed in *.
  1, 2: destruct Hd as (Hw & ->); apply (DeserializeInt_wf ok); auto; [first [left; reflexivity | right; reflexivity]].
  1, 2, 6: destruct Hd as (Hw & ->); eapply (DeserializeVarint_wf ok); eauto; [first [left; reflexivity | right; reflexivity]].
  - destruct Hd as (Hw & ->).
    destruct (DeserializeSInt_wf ok 32 bs rest s) as (s' & -> & Hs'); auto; [left; reflexivity|].
    exists s'. split; [|exact Hs']. rewrite ZigZagDecode_spec; [reflexivity|lia|]. apply Z.mod_pos_bound; cbn; lia.
  - destruct Hd as (Hw & ->).
    destruct (DeserializeSInt_wf ok 64 bs rest s) as (s' & -> & Hs'); auto; [right; reflexivity|].
    exists s'. split; [|exact Hs']. rewrite ZigZagDecode_spec; [reflexivity|lia|]. apply Z.mod_pos_bound; cbn; lia.
  - destruct Hd as (Hw & ->). destruct (varint_wf_1 bs Hw) as (b & -> & Hb & ->).
    unfold DeserializeBool. destruct (ro_pop_cons _ _ ok _ _ _ Hr) as (s' & -> & Hs'). cbn [bind]. eauto.
  - destruct Hd as (Hl & Hf & ->). apply (DeserializeFixed_full ok); auto. unfold zlen; rewrite Hl; reflexivity.
  - destruct Hd as (Hl & Hf & ->). apply (DeserializeFixed_full ok); auto. unfold zlen; rewrite Hl; reflexivity.
  - destruct Hd as (Hl & Hf & ->).
    destruct (DeserializeFixed_full ok 32 bs rest s) as (s' & -> & Hs'); auto.
    { unfold zlen; rewrite Hl; reflexivity. } cbn [bind option_map]. eauto.
  - destruct Hd as (Hl & Hf & ->).
    destruct (DeserializeFixed_full ok 64 bs rest s) as (s' & -> & Hs'); auto.
    { unfold zlen; rewrite Hl; reflexivity. } cbn [bind option_map]. eauto.
  - destruct Hd as (Hl & Hf & ->). apply (DeserializeFixed_full ok); auto. unfold zlen; rewrite Hl; reflexivity.
  - destruct Hd as (Hl & Hf & ->). apply (DeserializeFixed_full ok); auto. unfold zlen; rewrite Hl; reflexivity.
Qed.

End R.

Lemma scalar_enc_dec sc z : scalar_range sc z -> scalar_dec sc (scalar_enc sc z) z.
Proof.
  intros Hz. destruct sc; cbn [scalar_range scalar_enc scalar_dec] in *.
  - destruct (varint_wf64 (z mod 2 ^ 32)) as (Hw & Hv); [lia|]. split; [exact Hw|]. rewrite Hv.
    now rewrite to_signed_mod, to_signed_small by (cbn; lia).
  - destruct (varint_wf64 (z mod 2 ^ 64)) as (Hw & Hv); [lia|]. split; [exact Hw|]. rewrite Hv.
    now rewrite to_signed_mod, to_signed_small by (cbn; lia).
  - destruct (varint_wf32 z Hz) as (Hw & Hv). split; [exact Hw|]. rewrite Hv. symmetry. now apply Z.mod_small.
  - destruct (varint_wf64 z Hz) as (Hw & Hv). split; [exact Hw|]. rewrite Hv. symmetry. now apply Z.mod_small.
  - pose proof (zigzag_range 32 z ltac:(lia) Hz) as Hr.
    destruct (varint_wf64 (zigzag z)) as (Hw & Hv); [lia|]. split; [exact Hw|]. rewrite Hv.
    rewrite Z.mod_small by lia. symmetry. apply unzigzag_zigzag.
  - pose proof (zigzag_range 64 z ltac:(lia) Hz) as Hr.
    destruct (varint_wf64 (zigzag z)) as (Hw & Hv); [lia|]. split; [exact Hw|]. rewrite Hv.
    rewrite Z.mod_small by lia. symmetry. apply unzigzag_zigzag.
  - rewrite varint_small by lia. split.
    + exists [], z. cbn. repeat split; auto; lia.
    + cbn [varint_value]. destruct Hz; subst; reflexivity.
  - rewrite Z.mod_small by lia. destruct (varint_wf32 z Hz) as (Hw & Hv). split; [exact Hw|]. rewrite Hv. symmetry. now apply Z.mod_small.
  - split; [apply le_length|]. split; [apply le_bytes|]. symmetry. apply le_le_value. exact Hz.
  - split; [apply le_length|]. split; [apply le_bytes|]. symmetry. apply le_le_value. exact Hz.
  - split; [apply le_length|]. split; [apply le_bytes|]. rewrite le_le_value by (cbn; lia).
    now rewrite to_signed_mod, to_signed_small by (cbn; lia).
  - split; [apply le_length|]. split; [apply le_bytes|]. rewrite le_le_value by (cbn; lia).
    now rewrite to_signed_mod, to_signed_small by (cbn; lia).
  - split; [apply le_length|]. split; [apply le_bytes|]. symmetry. apply le_le_value. exact Hz.
  - split; [apply le_length|]. split; [apply le_bytes|]. symmetry. apply le_le_value. exact Hz.
Qed.

Lemma scalar_dec_range sc bs z : scalar_dec sc bs z -> scalar_range sc z.
Proof.
  destruct sc; cbn [scalar_range scalar_dec].
  1-6,8: intros (_ & ->); try (apply (to_signed_range 32); lia); try (apply (to_signed_range 64); lia);
     try (apply Z.mod_pos_bound; cbn; lia);
     try (apply (unzigzag_range 32); [lia|]; apply Z.mod_pos_bound; cbn; lia);
     try (apply (unzigzag_range 64); [lia|]; apply Z.mod_pos_bound; cbn; lia).
  - intros (_ & ->). destruct (varint_value bs =? 0); auto.
  - intros (Hl & Hf & ->). pose proof (le_value_bound bs Hf). unfold zlen in *. now rewrite Hl in *.
  - intros (Hl & Hf & ->). pose proof (le_value_bound bs Hf). unfold zlen in *. now rewrite Hl in *.
  - intros (Hl & Hf & ->). apply (to_signed_range 32); lia.
  - intros (Hl & Hf & ->). apply (to_signed_range 64); lia.
  - intros (Hl & Hf & ->). pose proof (le_value_bound bs Hf). unfold zlen in *. now rewrite Hl in *.
  - intros (Hl & Hf & ->). pose proof (le_value_bound bs Hf). unfold zlen in *. now rewrite Hl in *.
Qed.

Lemma scalar_dec_bytes sc bs z : scalar_dec sc bs z -> Forall is_byte bs /\ bs <> [].
Proof.
  destruct sc; cbn [scalar_dec]; intros H;
    try (destruct H as (H & _); split; [eapply varint_wf_bytes | eapply varint_wf_nonempty]; exact H);
    destruct H as (Hl & Hf & _); split; auto; intros ->; discriminate.
Qed.

Lemma scalar_enc_bytes sc z : scalar_range sc z -> Forall is_byte (scalar_enc sc z).
Proof. intros H. eapply scalar_dec_bytes. apply scalar_enc_dec. exact H. Qed.
Lemma scalar_enc_nonempty sc z : scalar_range sc z -> scalar_enc sc z <> [].
Proof. intros H. eapply scalar_dec_bytes. apply scalar_enc_dec. exact H. Qed.
