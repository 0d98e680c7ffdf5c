(** Decoding of arbitrary bytes: the decoder follows the relations of SpecRead.v. *)
From Verif Require Import Base Buffers Wire Schema Fields Message Spec Contracts BitLemmas
  ReadProofs ScalarProofs BufferProofs Struct SerProofs Tables DecodeProofs SpecRead.
From Coq Require Import ZifyBool ZifyNat ZifyN.
Ltac Zify.zify_post_hook ::= Z.div_mod_to_equations.

Lemma varint_fails_err k bs e rest : varint_fails k bs e rest -> e <> NoErrors.
Proof. destruct 1; discriminate. Qed.
Lemma scalar_fails_err sc bs e rest : scalar_fails sc bs e rest -> e <> NoErrors.
Proof. destruct 1; try discriminate. eapply varint_fails_err; eauto. Qed.
Lemma skip_fails_err w bs e rest : skip_fails w bs e rest -> e <> NoErrors.
Proof. destruct 1; try discriminate; eapply varint_fails_err; eauto. Qed.

Lemma wt_eqb_neq a b : a <> b -> wt_eqb a b = false.
Proof. destruct a, b; try reflexivity; congruence. Qed.
Lemma wt_eqb_refl a : wt_eqb a a = true.
Proof. destruct a; reflexivity. Qed.

Lemma scalar_reads_range sc c z : scalar_reads sc c z -> scalar_range sc z.
Proof. destruct 1; [eapply scalar_dec_range; eauto|subst; cbn; lia]. Qed.
Lemma scalar_reads_nonempty sc c z : scalar_reads sc c z -> c <> [].
Proof. destruct 1 as [c z H|]; [apply (scalar_dec_bytes sc c z H)|discriminate]. Qed.
Lemma packed_dec_reads sc q zs : packed_dec sc q zs -> packed_reads sc q zs.
Proof. induction 1; constructor; auto. now constructor. Qed.

Section R.
Context {S : Type} {R : rops S} {rel : S -> list Z -> Prop} (ok : reader_ok R rel).

Lemma DeserializeVarint_fails w bs e rest s : width w -> varint_fails (vbytes w) bs e rest -> rel s bs ->
  exists s', DeserializeVarint R w s = Done (e, None, s') /\ rel s' rest.
Proof.
  intros Hw [b Hl Hf|b r Hl Hf] Hr.
  - apply (DeserializeVarint_end ok w b s); auto.
  - apply (DeserializeVarint_over ok w b r s); auto.
Qed.

Lemma scalar_deserialize_z_fails sc bs e rest s : scalar_fails sc bs e rest -> rel s bs ->
  exists s', scalar_deserialize_z sc R s = Done (e, None, s') /\ rel s' rest.
Proof.
  intros Hf Hr. inversion Hf as [b e' r Hwt Hnb Hv| Hb | b Hwt Hl | b Hwt Hl]; subst.
  - pose proof (varint_fails_err _ _ _ _ Hv) as He.
    destruct sc; try discriminate Hwt; try contradiction; cbn [scalar_deserialize_z];
      unfold DeserializeInt, DeserializeSInt, DeserializeUInt;
      match goal with |- context [DeserializeVarint _ ?w _] =>
        destruct (DeserializeVarint_fails w bs e rest s) as (s' & -> & Hs') end;
      try (first [left; reflexivity | right; reflexivity]); try exact Hv; try exact Hr; cbn [bind];
      destruct e; try contradiction; eauto.
  - cbn [scalar_deserialize_z]. unfold DeserializeBool. destruct (ro_pop_nil _ _ ok _ Hr) as (s' & -> & Hs'). cbn [bind]. eauto.
  - assert (HF : exists s', DeserializeFixed R 32 s = Done (EndOfBuffer, None, s') /\ rel s' []).
    { apply (DeserializeFixed_short ok 32 bs s); auto. unfold zlen; lia. }
    destruct HF as (s' & E & Hs').
    destruct sc; try discriminate Hwt; cbn [scalar_deserialize_z]; unfold DeserializeFloat, DeserializeSFixed; rewrite E; cbn [bind]; eauto.
  - assert (HF : exists s', DeserializeFixed R 64 s = Done (EndOfBuffer, None, s') /\ rel s' []).
    { apply (DeserializeFixed_short ok 64 bs s); auto. unfold zlen; lia. }
    destruct HF as (s' & E & Hs').
    destruct sc; try discriminate Hwt; cbn [scalar_deserialize_z]; unfold DeserializeDouble, DeserializeSFixed; rewrite E; cbn [bind]; eauto.
Qed.

Lemma scalar_deserialize_z_reads sc c z rest s : scalar_reads sc c z -> rel s (c ++ rest) ->
  exists s', scalar_deserialize_z sc R s = Done (NoErrors, Some z, s') /\ rel s' rest.
Proof.
  intros [c' z' Hd|b -> Hb] Hr; [now apply (scalar_deserialize_z_dec ok sc c')|].
  cbn [scalar_deserialize_z app] in *. unfold DeserializeBool. destruct (ro_pop_cons _ _ ok _ _ _ Hr) as (s' & -> & Hs'). cbn [bind].
  destruct (Z.eqb_spec b 0); [lia|]. eauto.
Qed.

Lemma skip_unknown_fails w bs e rest s : skip_fails w bs e rest -> rel s bs ->
  exists s', skip_unknown_field w R s = Done (e, s') /\ rel s' rest.
Proof.
  intros Hf Hr. unfold skip_unknown_field, DeserializeFloat, DeserializeDouble, skip_length_delimited.
  inversion Hf as [b e' r Hv|b Hl|b Hl|b e' r Hv]; subst.
  - destruct (DeserializeVarint_fails 64 bs e rest s) as (s' & -> & Hs'); auto; [right; reflexivity|]. cbn [bind]. eauto.
  - destruct (DeserializeFixed_short ok 32 bs s) as (s' & -> & Hs'); auto; [unfold zlen; lia|]. cbn [bind]. eauto.
  - destruct (DeserializeFixed_short ok 64 bs s) as (s' & -> & Hs'); auto; [unfold zlen; lia|]. cbn [bind]. eauto.
  - pose proof (varint_fails_err _ _ _ _ Hv) as He.
    destruct (DeserializeVarint_fails 32 bs e rest s) as (s' & -> & Hs'); auto; [left; reflexivity|]. cbn [bind].
    destruct e; try contradiction; eauto.
Qed.

Lemma DeserializeTag_fails bs e rest s : varint_fails 5 bs e rest -> rel s bs ->
  exists s', DeserializeTag R s = Done (e, None, s') /\ rel s' rest.
Proof.
  intros Hv Hr. unfold DeserializeTag. pose proof (varint_fails_err _ _ _ _ Hv) as He.
  destruct (DeserializeVarint_fails 32 bs e rest s) as (s' & -> & Hs'); auto; [left; reflexivity|]. cbn [bind].
  destruct e; try contradiction; eauto.
Qed.

Lemma DeserializeTag_wiretype tg n rest s : varint32 tg n -> 5 < n mod 8 -> rel s (tg ++ rest) ->
  exists s', DeserializeTag R s = Done (InvalidWiretype, None, s') /\ rel s' rest.
Proof.
  intros (Hl & Hv) Hn Hr. unfold DeserializeTag.
  destruct (DeserializeVarint_wf ok 32 tg rest s) as (s' & -> & Hs'); auto; [left; reflexivity|]. cbn [bind].
  rewrite Hv, land_7. cbn [wt_code]. destruct (Z.leb_spec (n mod 8) 5); [lia|]. eauto.
Qed.

(** The string loop when the bytes end early. *)
Lemma bytes_loop_short : forall p n len data s, rel s p -> (length p < n)%nat ->
  0 <= len -> len + zlen p <= zlen data -> Forall is_byte data ->
  exists data' s', bytes_deserialize_loop R n len data s = Done (len + zlen p, data', s')
    /\ rel s' [] /\ zlen data' = zlen data /\ Forall is_byte data'
    /\ firstn (Z.to_nat (len + zlen p)) data' = firstn (Z.to_nat len) data ++ p.
Proof.
  induction p as [|b p IH]; intros n len data s Hr Hn Hl Hle Hb; destruct n as [|n]; try (cbn in Hn; lia);
    cbn [bytes_deserialize_loop].
  - destruct (ro_pop_nil _ _ ok _ Hr) as (s' & -> & Hs'). cbn [bind]. exists data, s'.
    rewrite zlen_nil, Z.add_0_r, app_nil_r. auto.
  - rewrite zlen_cons in Hle. pose proof (zlen_nonneg p).
    pose proof (ro_bytes _ _ ok _ _ Hr) as Hbs. inversion Hbs; subst.
    destruct (ro_pop_cons _ _ ok _ _ _ Hr) as (s' & -> & Hs'). cbn [bind].
    rewrite aset_ok by lia. cbn [bind]. cbn [length] in Hn.
    destruct (IH n (len + 1) (upd (Z.to_nat len) b data) s') as (data' & s2 & E & Hr2 & Hz & Hb' & Hf); auto; try lia.
    { rewrite zlen_upd. lia. } { apply Forall_upd; auto. }
    exists data', s2. rewrite E, zlen_cons. replace (len + 1 + zlen p) with (len + (1 + zlen p)) in * by lia.
    split; [reflexivity|]. split; [auto|]. split; [now rewrite zlen_upd in Hz|]. split; [auto|]. rewrite Hf.
    replace (Z.to_nat (len + 1)) with (Datatypes.S (Z.to_nat len)) by lia.
    rewrite firstn_S_upd by (unfold zlen in *; lia). now rewrite <- app_assoc.
Qed.

Lemma bytes_deserialize_cut st max l n p v s : capacity_ok max -> varint32 l n -> zlen p < n <= max ->
  rel s (l ++ p) ->
  exists v' s', bytes_deserialize max S R v s = Done (EndOfBuffer, v', s') /\ rel s' []
    /\ good (EBytes st max) v' (SvB p).
Proof.
  intros Hc (Hl & Hv) Hm Hr. unfold bytes_deserialize, capacity_ok in *.
  destruct (DeserializeVarint_wf ok 32 l p s) as (s1 & -> & Hr1); auto; [left; reflexivity|].
  cbn [bind]. rewrite Hv. destruct (Z.leb_spec n max); [|lia]. pose proof (zlen_nonneg p).
  destruct (bytes_loop_short p (Z.to_nat n) 0 (zrepeat 0 max) s1) as (data' & s2 & -> & Hr2 & Hz & Hb & Hf); auto; try lia.
  { unfold zlen in *. lia. } { rewrite zlen_zrepeat by lia. lia. } { apply zrepeat_bytes. }
  rewrite zlen_zrepeat in Hz by lia. cbn [bind]. rewrite Z.add_0_l in *. destruct (Z.eqb_spec (zlen p) n); [lia|].
  exists (VB (zlen p) data'), s2.
  split; [reflexivity|]. split; [auto|]. unfold good; cbn [wt clean view].
  split; [|split; [exact I|]]. { split; [lia|]. split; [auto|]. now apply all_Forall. }
  rewrite Hf. reflexivity.
Qed.

(** Packed fields: an element that cannot be read, and a full array. *)
Lemma packed_loop_fails sc max : forall q zs, packed_reads sc q zs -> forall r e rest fuel x len data s,
  rel s (q ++ r) -> (length (q ++ r) < fuel)%nat -> 0 <= len -> zlen data = max -> all (wt (EScalar sc)) data ->
  len + zlen zs <= max -> scalar_fails sc r e rest ->
  exists data' s', rep_packed_loop sc fuel x len data R s = Done (e, len + zlen zs, data', s')
    /\ rel s' rest /\ zlen data' = max /\ all (wt (EScalar sc)) data'
    /\ firstn (Z.to_nat (len + zlen zs)) data' = firstn (Z.to_nat len) data ++ map VS zs.
Proof.
  induction 1 as [|bs z q zs Hz Hp IH]; intros r e rest fuel x len data s Hr Hfu Hl Hd Hw Hm Hf.
  - destruct fuel as [|fuel]; [lia|]. cbn [rep_packed_loop]. unfold scalar_deserialize. cbn [app] in Hr.
    destruct (scalar_deserialize_z_fails sc r e rest s Hf Hr) as (s1 & -> & Hr1). cbn [bind].
    pose proof (scalar_fails_err _ _ _ _ Hf). assert (Ei : is_ok e = false) by (destruct e; try reflexivity; contradiction). rewrite Ei.
    exists data, s1. rewrite zlen_nil, Z.add_0_r. cbn [map]. rewrite app_nil_r. auto.
  - destruct fuel as [|fuel]; [lia|]. cbn [rep_packed_loop]. unfold scalar_deserialize. rewrite <- app_assoc in Hr.
    destruct (scalar_deserialize_z_reads sc bs z (q ++ r) s Hz Hr) as (s1 & -> & Hr1). cbn [bind is_ok].
    rewrite zlen_cons in *. pose proof (zlen_nonneg zs). unfold rep_add_scalar.
    destruct (Z.ltb_spec len (zlen data)); [|lia]. rewrite aset_ok by lia. cbn [bind is_ok].
    pose proof (scalar_reads_nonempty sc bs z Hz) as Hne.
    destruct (IH r e rest fuel (VS z) (len + 1) (upd (Z.to_nat len) (VS z) data) s1) as (data' & s2 & E & Hr2 & Hz' & Hw' & Hfn); auto.
    + rewrite !app_length in *. destruct bs; [congruence|]. cbn in Hfu. lia.
    + lia.
    + now rewrite zlen_upd.
    + apply all_Forall. apply Forall_upd; [now apply all_Forall|]. cbn [wt]. eapply scalar_reads_range; eauto.
    + lia.
    + exists data', s2. rewrite E. replace (len + 1 + zlen zs) with (len + (1 + zlen zs)) in * by lia.
      split; [reflexivity|]. split; [auto|]. split; [auto|]. split; [auto|]. rewrite Hfn. cbn [map].
      replace (Z.to_nat (len + 1)) with (Datatypes.S (Z.to_nat len)) by lia.
      rewrite firstn_S_upd by (unfold zlen in *; lia). now rewrite <- app_assoc.
Qed.

Lemma packed_loop_full sc max : forall q zs, packed_reads sc q zs -> forall c z r fuel x len data s,
  rel s (q ++ c ++ r) -> (length (q ++ c ++ r) < fuel)%nat -> 0 <= len -> zlen data = max -> all (wt (EScalar sc)) data ->
  len + zlen zs = max -> scalar_reads sc c z ->
  exists data' s', rep_packed_loop sc fuel x len data R s = Done (ArrayFull, len + zlen zs, data', s')
    /\ rel s' r /\ zlen data' = max /\ all (wt (EScalar sc)) data'
    /\ firstn (Z.to_nat (len + zlen zs)) data' = firstn (Z.to_nat len) data ++ map VS zs.
Proof.
  induction 1 as [|bs z q zs Hz Hp IH]; intros c z' r fuel x len data s Hr Hfu Hl Hd Hw Hm Hf.
  - destruct fuel as [|fuel]; [lia|]. cbn [rep_packed_loop]. unfold scalar_deserialize. cbn [app] in Hr.
    destruct (scalar_deserialize_z_reads sc c z' r s Hf Hr) as (s1 & -> & Hr1). cbn [bind is_ok].
    rewrite zlen_nil, Z.add_0_r in *. unfold rep_add_scalar. destruct (Z.ltb_spec len (zlen data)); [lia|]. cbn [bind is_ok].
    exists data, s1. cbn [map]. rewrite app_nil_r. auto.
  - destruct fuel as [|fuel]; [lia|]. cbn [rep_packed_loop]. unfold scalar_deserialize. rewrite <- app_assoc in Hr.
    destruct (scalar_deserialize_z_reads sc bs z (q ++ c ++ r) s Hz Hr) as (s1 & -> & Hr1). cbn [bind is_ok].
    rewrite zlen_cons in *. pose proof (zlen_nonneg zs). unfold rep_add_scalar.
    destruct (Z.ltb_spec len (zlen data)); [|lia]. rewrite aset_ok by lia. cbn [bind is_ok].
    pose proof (scalar_reads_nonempty sc bs z Hz) as Hne.
    destruct (IH c z' r fuel (VS z) (len + 1) (upd (Z.to_nat len) (VS z) data) s1) as (data' & s2 & E & Hr2 & Hz' & Hw' & Hfn); auto.
    + rewrite !app_length in *. destruct bs; [congruence|]. cbn in Hfu. lia.
    + lia.
    + now rewrite zlen_upd.
    + apply all_Forall. apply Forall_upd; [now apply all_Forall|]. cbn [wt]. eapply scalar_reads_range; eauto.
    + lia.
    + exists data', s2. rewrite E. replace (len + 1 + zlen zs) with (len + (1 + zlen zs)) in * by lia.
      split; [reflexivity|]. split; [auto|]. split; [auto|]. split; [auto|]. rewrite Hfn. cbn [map].
      replace (Z.to_nat (len + 1)) with (Datatypes.S (Z.to_nat len)) by lia.
      rewrite firstn_S_upd by (unfold zlen in *; lia). now rewrite <- app_assoc.
Qed.

End R.


(** ** How much is read *)
Lemma app_suffix {A} (a : list A) l r : (exists u, l = u ++ r) -> exists u, a ++ l = u ++ r.
Proof. intros (u & ->). exists (a ++ u). now rewrite app_assoc. Qed.

Lemma varint_fails_suffix k bs e rest : varint_fails k bs e rest -> exists u, bs = u ++ rest.
Proof. destruct 1 as [bs|bs rest]; [exists bs; now rewrite app_nil_r|exists bs; reflexivity]. Qed.
Lemma scalar_fails_suffix sc bs e rest : scalar_fails sc bs e rest -> exists u, bs = u ++ rest.
Proof.
  destruct 1; try (eapply varint_fails_suffix; eassumption); try (exists bs; now rewrite app_nil_r). exists []; reflexivity.
Qed.
Lemma skip_fails_suffix w bs e rest : skip_fails w bs e rest -> exists u, bs = u ++ rest.
Proof. destruct 1; try (eapply varint_fails_suffix; eassumption); exists bs; now rewrite app_nil_r. Qed.

Lemma tag_suffix tg n l r : varint32 tg n -> (exists u, l = u ++ r) -> exists u, tg ++ l = u ++ r /\ u <> [].
Proof.
  intros Ht (u & ->). exists (tg ++ u). split; [now rewrite app_assoc|]. apply varint32_nonempty in Ht. now destruct tg.
Qed.

Lemma read_suffix d : forall bd,
  (forall t old bs e new rest, eread d bd t old bs e new rest -> exists u, bs = u ++ rest)
  /\ (forall fs os old bs e new rest, mread d bd fs os old bs e new rest -> exists u, bs = u ++ rest)
  /\ (forall fs os old bs e new rest, rread d bd fs os old bs e new rest -> exists u, bs = u ++ rest /\ u <> [])
  /\ (forall k t w x bs e x' rest, fread d bd k t w x bs e x' rest -> exists u, bs = u ++ rest).
Proof.
  assert (Htail : forall (l p rest tail : list Z), (exists u, p = u ++ rest) -> exists u, l ++ p ++ tail = u ++ rest ++ tail).
  { intros l p rest tail (u & ->). exists (l ++ u). now rewrite <- !app_assoc. }
  assert (Hself : forall (r : list Z), exists u, r = u ++ r) by (intros r; exists []; reflexivity).
  assert (Hnil : forall (r : list Z), exists u, r = u ++ []) by (intros r; exists r; now rewrite app_nil_r).
  apply read_ind; intros; eauto using app_suffix, varint_fails_suffix, scalar_fails_suffix, skip_fails_suffix, tag_suffix.
  - destruct H as (u & -> & _). eauto.
  - destruct H as (u & -> & _). destruct H0 as (u' & ->). exists (u ++ u'). now rewrite <- app_assoc.
Qed.

(** On success a message is read to the end. *)
Lemma mread_ok_end d : forall bd fs os old bs e new rest, mread d bd fs os old bs e new rest -> e = NoErrors -> rest = [].
Proof. induction 1; intros; try discriminate; auto; contradiction. Qed.

(** The induction predicates. *)
Definition elem_read_ok (d bd : bool) (t : ety) (old : sval) (bs : list Z) (e : err) (new : sval) (rest : list Z) : Prop :=
  forall v S (R : rops S) rel (ok : reader_ok R rel) (Hbd : bd = true -> reader_bounded R rel) s fuel,
  desc_ok t -> ready t v old -> rel s bs -> (length bs < fuel)%nat ->
  exists v' s', elem_deserialize_check_type t (deserialize fuel t) (elem_wiretype t) S R v s = Done (e, v', s')
    /\ rel s' rest /\ (e = NoErrors -> good t v' new)
    /\ (wt t v -> clean t v -> wt t v' /\ clean t v' /\ eread d bd t (view t v) bs e (view t v') rest
        /\ (d = true \/ e = NoErrors -> view t v = old -> view t v' = new)).

Definition msg_read_ok (d bd : bool) (fs : list fdesc) (os : list odesc) (old : sval) (bs : list Z) (e : err) (new : sval) (rest : list Z) : Prop :=
  forall v S (R : rops S) rel (ok : reader_ok R rel) (Hbd : bd = true -> reader_bounded R rel) s fuel0 fuel,
  desc_ok (EMsg fs os) -> good (EMsg fs os) v old -> rel s bs -> (length bs < fuel)%nat -> (length bs < fuel0)%nat ->
  exists v' s', msg_loop fuel0 fuel (dtab fuel0 fs) (dotab fuel0 os) R v s = Done (e, v', s')
    /\ rel s' rest /\ wt (EMsg fs os) v' /\ clean (EMsg fs os) v'
    /\ mread d bd fs os old bs e (view (EMsg fs os) v') rest
    /\ (d = true \/ e = NoErrors -> view (EMsg fs os) v' = new).

Definition rec_read_ok (d bd : bool) (fs : list fdesc) (os : list odesc) (old : sval) (bs : list Z) (e : err) (new : sval) (rest : list Z) : Prop :=
  forall v S (R : rops S) rel (ok : reader_ok R rel) (Hbd : bd = true -> reader_bounded R rel) s fuel0,
  desc_ok (EMsg fs os) -> good (EMsg fs os) v old -> rel s bs -> (length bs < fuel0)%nat ->
  exists w id s1 v' s', DeserializeTag R s = Done (NoErrors, Some (w, id), s1)
    /\ msg_dispatch fuel0 (dtab fuel0 fs) (dotab fuel0 os) id w R v s1 = Done (e, v', s')
    /\ rel s' rest /\ wt (EMsg fs os) v' /\ clean (EMsg fs os) v'
    /\ rread d bd fs os old bs e (view (EMsg fs os) v') rest
    /\ (d = true \/ e = NoErrors -> view (EMsg fs os) v' = new).

Definition field_read_ok (d bd : bool) (k : fkind) (t : ety) (w : wiretype) (x : sval) (bs : list Z) (e : err) (x' : sval) (rest : list Z) : Prop :=
  forall fs i num pres v S (R : rops S) rel (ok : reader_ok R rel) (Hbd : bd = true -> reader_bounded R rel) s fuel,
  nth_error fs i = Some (num, k, t) -> desc_ok t -> match k with KRep max => capacity_ok max | _ => True end ->
  zlen pres = presence_size (n_optional fs) -> Forall is_u32 pres ->
  wt_field k (wt t) v -> clean_field k t (clean t) (optix fs i) pres v -> view_field k (view t) (optix fs i) pres v = x ->
  rel s bs -> (length bs < fuel)%nat ->
  exists pres' v' s', field_deserialize fuel (num, k, t, deserialize fuel t) (optix fs i) w pres v R s = Done (e, pres', v', s')
    /\ rel s' rest /\ zlen pres' = presence_size (n_optional fs) /\ Forall is_u32 pres' /\ agree_but fs 0 i pres pres'
    /\ wt_field k (wt t) v' /\ clean_field k t (clean t) (optix fs i) pres' v'
    /\ fread d bd k t w x bs e (view_field k (view t) (optix fs i) pres' v') rest
    /\ (d = true \/ e = NoErrors -> view_field k (view t) (optix fs i) pres' v' = x').

Lemma elem_wrong_wiretype t d w S (R : rops S) v s : w <> elem_wiretype t ->
  elem_deserialize_check_type t d w S R v s = Done (InvalidWiretype, v, s).
Proof.
  intros H. unfold elem_deserialize_check_type. destruct t; cbn [elem_wiretype] in H; rewrite wt_eqb_neq by congruence; reflexivity.
Qed.

Lemma opt_present fs i num t pres : nth_error fs i = Some (num, KOpt, t) -> zlen pres = presence_size (n_optional fs) ->
  Forall is_u32 pres ->
  exists pres', presence_set pres (optix fs i) = Done pres' /\ zlen pres' = presence_size (n_optional fs)
    /\ Forall is_u32 pres' /\ agree_but fs 0 i pres pres' /\ present pres' (optix fs i) = true.
Proof.
  intros Hf Hz Hu. destruct (presence_set_ok pres (optix fs i) (n_optional fs)) as (pres' & E & H1 & H2 & H3); auto.
  { eapply optix_bound; eauto. }
  exists pres'. do 3 (split; [auto|]). split; [eapply agree_set; eauto|]. rewrite H3 by apply optix_nonneg. now rewrite Z.eqb_refl.
Qed.

Lemma clean_opt_view t i pres v x : clean_field KOpt t (clean t) i pres v -> view_field KOpt (view t) i pres v = x ->
  clean t v /\ view t v = opt_start t x.
Proof.
  cbn [clean_field view_field]. intros [H1 H2] <-. split; [exact H1|]. destruct (present pres i); cbn [opt_start]; auto.
Qed.

Lemma opt_start_shown t x : shown t x = SvSome (opt_start t x).
Proof. destruct x; reflexivity. Qed.

Lemma rep_view_parts max t i pres v old : wt_field (KRep max) (wt t) v -> view_field (KRep max) (view t) i pres v = SvR old ->
  exists len data, v = VR len data /\ 0 <= len <= max /\ zlen data = max /\ all (wt t) data
    /\ old = map (view t) (firstn (Z.to_nat len) data) /\ zlen (map (view t) (firstn (Z.to_nat len) data)) = len.
Proof.
  cbn [wt_field view_field]. destruct v as [| | |len data|]; try contradiction. intros (Hl & Hz & Hw) E.
  exists len, data. do 4 (split; [auto; fail|]). split; [congruence|]. rewrite zlen_map, zlen_firstn. lia.
Qed.

(** The next free element of a repeated field. *)
Lemma rep_next t d S (R : rops S) len data s : 0 <= len < zlen data -> zlen data < 2 ^ 31 ->
  exists y, nth_error data (Z.to_nat len) = Some y /\
  (is_packed t = false -> forall e y' s', elem_deserialize_check_type t d LENDEL S R y s = Done (e, y', s') ->
   (forall fs os, t = EMsg fs os -> exists n s1, DeserializeVarint R 32 s = Done (NoErrors, Some n, s1)) ->
   rep_deserialize_unpacked t d S R (VR len data) s = Done (e, VR (len + 1) (upd (Z.to_nat len) y' data), s')).
Proof.
  intros Hl Hz. destruct (aget_ok data len) as (y & Ey & Hy); [lia|]. exists y. split; [exact Hy|].
  intros Hpk e y' s' Ee Hlen. unfold rep_deserialize_unpacked, rep_get. destruct (Z.ltb_spec len (zlen data)); [|lia].
  rewrite u32_small by lia. rewrite Z.min_l by lia. destruct (Z.leb_spec len len); [|lia]. rewrite Ey. cbn [bind].
  unfold elem_deserialize_check_type, deserialize_section in Ee.
  destruct t as [|st mx|fs' os2]; [discriminate Hpk| |]; rewrite wt_eqb_refl in Ee.
  - rewrite Ee. cbn [bind]. rewrite aset_ok by lia. reflexivity.
  - destruct (Hlen fs' os2 eq_refl) as (n & s1 & E1). rewrite E1 in *. cbn [bind] in *.
    destruct (d _ _ y _) as [[[e1 v1] sec]| |]; cbn [bind] in *; try discriminate.
    injection Ee as -> -> <-. rewrite aset_ok by lia. reflexivity.
Qed.

Lemma mk_section_spans {S} (R : rops S) rel s n p tail : reader_ok R rel -> spans n p tail ->
  rel s (p ++ tail) -> sec_rel rel tail (mk_section R s n) p.
Proof.
  intros ok [->|[Hn ->]] H; [now apply mk_section_rel|]. rewrite app_nil_r in H. apply mk_section_rel_short; auto. lia.
Qed.

Lemma exact_ok {S} (R : rops S) rel tail : reader_ok R rel -> reader_ok (sec_ops R) (exact_rel rel tail).
Proof.
  intros ok. constructor; cbn [sec_ops r_get_size r_pop r_peek r_advance r_advance_n].
  - intros s l (H & _). pose proof (ro_bytes _ _ ok _ _ H) as Hb. apply Forall_app in Hb. tauto.
  - intros s l (_ & E). lia.
  - intros s (H & E). rewrite zlen_nil in *. exists s. unfold sec_pop. rewrite E. split; [reflexivity|]. split; auto.
  - intros s b l (H & E). unfold sec_pop. rewrite zlen_cons in *. pose proof (zlen_nonneg l).
    destruct (Z.ltb_spec 0 (sec_size s)); [|lia]. cbn [app] in H.
    destruct (ro_pop_cons _ _ ok _ _ _ H) as (s' & -> & H'). cbn [bind]. eexists. split; [reflexivity|].
    split; [exact H'|]. cbn [sec_size]. lia.
  - intros s (H & E). rewrite zlen_nil in *. unfold sec_peek. rewrite E. reflexivity.
  - intros s b l (H & E). unfold sec_peek. rewrite zlen_cons in *. pose proof (zlen_nonneg l).
    destruct (Z.ltb_spec 0 (sec_size s)); [|lia]. apply (ro_peek_cons _ _ ok _ _ _ H).
  - intros s (H & E). rewrite zlen_nil in *. exists s. unfold sec_advance. rewrite E. split; [reflexivity|]. split; auto.
  - intros s b l (H & E). unfold sec_advance. rewrite zlen_cons in *. pose proof (zlen_nonneg l).
    destruct (Z.ltb_spec 0 (sec_size s)); [|lia]. cbn [app] in H.
    destruct (ro_advance_cons _ _ ok _ _ _ H) as (s' & -> & H'). cbn [bind]. eexists. split; [reflexivity|].
    split; [exact H'|]. cbn [sec_size]. lia.
  - intros s l n (H & E) Hn. unfold sec_advance_n. pose proof (zlen_nonneg l).
    destruct (Z.ltb_spec 0 (sec_size s)).
    + destruct (Z.leb_spec n (sec_size s)); [|lia].
      destruct (ro_advance_n _ _ ok (sec_parent s) (l ++ tail) n H) as (k & s' & -> & H' & Hk).
      { rewrite zlen_app. pose proof (zlen_nonneg tail). lia. }
      cbn [bind]. exists k. eexists. split; [reflexivity|]. rewrite skipn_app in H'.
      replace (Z.to_nat n - length l)%nat with O in H' by (unfold zlen in *; lia).
      split; [|exact Hk]. split; [exact H'|]. cbn [sec_size]. rewrite zlen_skipn. lia.
    + assert (n = 0) by lia. subst n. exists false, s. split; [reflexivity|]. split; [|lia]. split; auto.
Qed.

Lemma exact_bounded {S} (R : rops S) rel tail : reader_ok R rel -> reader_bounded (sec_ops R) (exact_rel rel tail).
Proof.
  intros ok. constructor; cbn [sec_ops r_get_size r_advance_n].
  - intros s l (_ & E). exact E.
  - intros s l n (H & E) Hn. unfold sec_advance_n. pose proof (zlen_nonneg l). destruct (Z.ltb_spec 0 (sec_size s)).
    + destruct (Z.leb_spec n (sec_size s)); [lia|].
      destruct (ro_advance_n _ _ ok (sec_parent s) (l ++ tail) (sec_size s) H) as (k & s' & -> & H' & Hk).
      { rewrite zlen_app. pose proof (zlen_nonneg tail). lia. }
      cbn [bind]. exists k. eexists. split; [reflexivity|]. rewrite E in H'. unfold zlen in H'. rewrite Nat2Z.id in H'.
      rewrite skipn_app, skipn_all, Nat.sub_diag in H'. split; [exact H'|]. cbn [sec_size]. rewrite zlen_nil. lia.
    + exists false, s. split; [reflexivity|]. assert (El : l = []) by (destruct l; [reflexivity|rewrite zlen_cons in *; pose proof (zlen_nonneg l); lia]).
      subst l. split; auto.
Qed.

(** The relation that describes the section of a nested message. *)
Lemma section_rel {S} (R : rops S) rel bd s n p tail : reader_ok R rel -> (bd = true -> reader_bounded R rel) ->
  spans n p tail -> rel s (p ++ tail) ->
  exists srel, reader_ok (sec_ops R) srel /\ (bd || (n =? zlen p) = true -> reader_bounded (sec_ops R) srel)
    /\ srel (mk_section R s n) p /\ (forall b l, srel b l -> rel (sec_parent b) (l ++ tail)).
Proof.
  intros ok Hbd Hsp Hr. destruct (bd || (n =? zlen p)) eqn:E.
  - exists (exact_rel rel tail). split; [now apply exact_ok|]. split; [intros _; now apply exact_bounded|].
    split; [|intros b l (H & _); exact H]. split; [exact Hr|]. cbn [mk_section sec_size].
    pose proof (ro_size _ _ ok _ _ Hr) as Hz. rewrite zlen_app in Hz. pose proof (zlen_nonneg tail).
    destruct Hsp as [->|[Hlt ->]]; [lia|]. destruct (Z.eqb_spec n (zlen p)) as [E1|E1]; [lia|]. rewrite orb_false_r in E.
    rewrite (rb_size _ _ (Hbd E) _ _ Hr), app_nil_r. lia.
  - exists (sec_rel rel tail). split; [now apply sec_ok|]. split; [discriminate|]. split; [now apply mk_section_spans|].
    intros b l (H & _). exact H.
Qed.

Theorem read_ok d : forall bd,
  (forall t old bs e new rest, eread d bd t old bs e new rest -> elem_read_ok d bd t old bs e new rest)
  /\ (forall fs os old bs e new rest, mread d bd fs os old bs e new rest -> msg_read_ok d bd fs os old bs e new rest)
  /\ (forall fs os old bs e new rest, rread d bd fs os old bs e new rest -> rec_read_ok d bd fs os old bs e new rest)
  /\ (forall k t w x bs e x' rest, fread d bd k t w x bs e x' rest -> field_read_ok d bd k t w x bs e x' rest).
Proof.
  apply read_ind.
  - (* scalar *)
    intros bd sc old c z rest Hs v S R rel ok Hbd s fuel _ _ Hr _. unfold elem_deserialize_check_type. cbn [elem_wiretype]. rewrite wt_eqb_refl.
    cbn [deserialize]. unfold scalar_deserialize. destruct (scalar_deserialize_z_reads ok sc c z rest s Hs Hr) as (s1 & -> & Hr1).
    cbn [bind]. assert (Hg : good (EScalar sc) (VS z) (SvZ z)).
    { unfold good; cbn. split; [|auto]. eapply scalar_reads_range; eauto. }
    exists (VS z), s1. split; [reflexivity|]. split; [exact Hr1|]. split; [intros _; exact Hg|]. intros Hw Hc. split; [apply Hg|]. split; [exact Hc|].
    split; [now constructor|auto].
  - (* scalar, failing *)
    intros bd sc old bs e rest Hs. pose proof (scalar_fails_err _ _ _ _ Hs) as He.
    intros v S R rel ok Hbd s fuel _ _ Hr _. unfold elem_deserialize_check_type. cbn [elem_wiretype]. rewrite wt_eqb_refl.
    cbn [deserialize]. unfold scalar_deserialize. destruct (scalar_deserialize_z_fails ok sc bs e rest s Hs Hr) as (s1 & -> & Hr1).
    cbn [bind]. exists v, s1. split; [reflexivity|]. split; [exact Hr1|]. split; [contradiction|]. intros Hw Hc. split; [exact Hw|]. split; [exact Hc|].
    split; [now constructor|auto].
  - (* length *)
    intros bd t old bs e rest Hpk Hv. pose proof (varint_fails_err _ _ _ _ Hv) as He.
    intros v S R rel ok Hbd s fuel _ _ Hr _. destruct (DeserializeVarint_fails ok 32 bs e rest s) as (s1 & E & Hr1); auto; [left; reflexivity|].
    exists v, s1. split; [|split; [exact Hr1|split; [contradiction|intros Hw Hc; split; [exact Hw|]; split; [exact Hc|split; [now constructor|auto]]]]].
    unfold elem_deserialize_check_type, deserialize_section. destruct t; [discriminate| |]; cbn [elem_wiretype]; rewrite wt_eqb_refl;
      cbn [deserialize]; unfold bytes_deserialize; rewrite E; cbn [bind]; destruct e; try contradiction; reflexivity.
  - (* bytes *)
    intros bd st max old l p rest Hl Hn v S R rel ok Hbd s fuel Hd _ Hr _.
    destruct (bytes_deserialize_full ok st max p l rest v s) as (v' & s' & E & Hr' & Hg); auto.
    exists v', s'. split; [|split; [exact Hr'|split; [auto|intros _ _; destruct Hg as (Hw & Hc & Hv); split; [exact Hw|]; split; [exact Hc|]]]].
    + unfold elem_deserialize_check_type. cbn [elem_wiretype]. rewrite wt_eqb_refl. exact E.
    + split; [|auto]. rewrite Hv. eapply eread_bytes; eauto.
  - (* too long *)
    intros bd st max old l n rest Hl Hn. intros v S R rel ok Hbd s fuel Hd _ Hr _.
    destruct Hl as (Hl & Hlv). destruct (DeserializeVarint_wf ok 32 l rest s) as (s1 & E & Hr1); auto; [left; reflexivity|].
    exists v, s1. split; [|split; [exact Hr1|split; [discriminate|intros Hw Hc; split; [exact Hw|]; split; [exact Hc|]]]].
    + unfold elem_deserialize_check_type. cbn [elem_wiretype]. rewrite wt_eqb_refl. cbn [deserialize]. unfold bytes_deserialize.
      rewrite E. cbn [bind]. rewrite Hlv. destruct (Z.leb_spec n max); [lia|reflexivity].
    + split; [|auto]. eapply eread_too_long; [split; eassumption|lia].
  - (* cut short *)
    intros bd st max old l n p Hl Hn. intros v S R rel ok Hbd s fuel Hd _ Hr _.
    destruct (bytes_deserialize_cut ok st max l n p v s) as (v' & s' & E & Hr' & (Hw & Hc & Hv)); auto.
    exists v', s'. split; [|split; [exact Hr'|split; [discriminate|intros _ _; split; [exact Hw|]; split; [exact Hc|]]]].
    + unfold elem_deserialize_check_type. cbn [elem_wiretype]. rewrite wt_eqb_refl. exact E.
    + split; [|auto]. rewrite Hv. eapply eread_cut; eauto.
  - (* nested message *)
    intros bd fs os old l n p e new rest tail Hl Hsp Hm IH. intros v S R rel ok Hbd s fuel Hd Hg Hr Hfu.
    cbn [ready] in Hg. rewrite !app_length in Hfu. pose proof Hl as Hl0. destruct Hl as (Hl & Hlv).
    destruct (DeserializeVarint_wf ok 32 l (p ++ tail) s) as (s1 & E & Hr1); auto; [left; reflexivity|].
    destruct (section_rel R rel bd s1 n p tail ok Hbd Hsp Hr1) as (srel & sok & sbd & Hrs & Hpar).
    destruct (IH v _ (sec_ops R) srel sok sbd (mk_section R s1 n) fuel fuel)
      as (v' & s' & E' & Hs' & Hw & Hc & Hf & Hdet); auto; try lia.
    exists v', (sec_parent s'). split; [|split; [now apply Hpar|split; [intros He; split; [exact Hw|split; [exact Hc|auto]]|intros _ _; split; [exact Hw|]; split; [exact Hc|]]]].
    + unfold elem_deserialize_check_type, deserialize_section. cbn [elem_wiretype]. rewrite wt_eqb_refl. rewrite E. cbn [bind].
      rewrite Hlv. cbn [deserialize]. unfold msg_deserialize.
      change (map (fun '(num, k, t) => (num, k, t, deserialize fuel t)) fs) with (dtab fuel fs).
      change (map (map (fun '(num, t) => (num, t, deserialize fuel t))) os) with (dotab fuel os).
      rewrite E'. reflexivity.
    + destruct Hg as (_ & _ & Hv). rewrite Hv. split; [now apply (eread_msg d bd fs os old l n)|auto].
  - (* the end *)
    intros bd fs os vs ovs bs Hv v S R rel ok Hbd s fuel0 fuel Hd Hg Hr Hfu _.
    destruct fuel as [|fuel]; [lia|]. cbn [msg_loop]. destruct (DeserializeTag_fails ok bs _ [] s Hv Hr) as (s1 & -> & Hr1).
    cbn [bind]. exists v, s1. destruct Hg as (Hw & Hc & Hvw). do 4 (split; [auto; fail|]). rewrite Hvw. split; [now constructor|auto].
  - (* overlong tag *)
    intros bd fs os vs ovs bs rest Hv. intros v S R rel ok Hbd s fuel0 fuel Hd Hg Hr Hfu _.
    destruct fuel as [|fuel]; [lia|]. cbn [msg_loop]. destruct (DeserializeTag_fails ok bs _ rest s Hv Hr) as (s1 & -> & Hr1).
    cbn [bind]. exists v, s1. destruct Hg as (Hw & Hc & Hvw). do 4 (split; [auto; fail|]). rewrite Hvw. split; [now constructor|auto].
  - (* bad wire type in the tag *)
    intros bd fs os vs ovs tg n rest Htg Hn. intros v S R rel ok Hbd s fuel0 fuel Hd Hg Hr Hfu _.
    destruct fuel as [|fuel]; [lia|]. cbn [msg_loop]. destruct (DeserializeTag_wiretype ok tg n rest s Htg Hn Hr) as (s1 & -> & Hr1).
    cbn [bind]. exists v, s1. destruct Hg as (Hw & Hc & Hvw). do 4 (split; [auto; fail|]). rewrite Hvw. split; [eapply mread_tag_wiretype; eauto|auto].
  - (* first record *)
    intros bd fs os old bs e new rest Hrf IH He. intros v S R rel ok Hbd s fuel0 fuel Hd Hg Hr Hfu Hfu0.
    destruct fuel as [|fuel]; [lia|]. cbn [msg_loop].
    destruct (IH v S R rel ok Hbd s fuel0) as (w & id & s1 & v' & s' & -> & E & Hr' & Hw & Hc & Hf & Hdet); auto.
    cbn [bind]. rewrite E. cbn [bind]. assert (Ei : is_ok e = false) by (destruct e; try reflexivity; contradiction). rewrite Ei.
    exists v', s'. do 4 (split; [auto; fail|]). split; [now apply mread_stop|exact Hdet].
  - (* a later record *)
    intros bd fs os old bs mid bs' e new rest Hrd IHr Hm IH. intros v S R rel ok Hbd s fuel0 fuel Hd Hg Hr Hfu Hfu0.
    destruct (proj1 (proj2 (proj2 (read_suffix d bd))) _ _ _ _ _ _ _ Hrd) as (u & Eu & Hne).
    assert (Hlt : (length bs' < length bs)%nat). { rewrite Eu, app_length. destruct u; [congruence|]. cbn; lia. }
    destruct fuel as [|fuel]; [lia|]. cbn [msg_loop].
    destruct (IHr v S R rel ok Hbd s fuel0) as (w & id & s1 & v1 & s2 & -> & E & Hr2 & Hw2 & Hc2 & Hf2 & Hv2); auto.
    cbn [bind]. rewrite E. cbn [bind is_ok].
    destruct (IH v1 S R rel ok Hbd s2 fuel0 fuel) as (v' & s' & E' & Hr' & Hw & Hc & Hf & Hdet); auto; try lia.
    { split; [|split]; auto. }
    exists v', s'. do 4 (split; [auto; fail|]). split; [now apply (mread_next d bd fs os old bs mid bs')|exact Hdet].
  - (* field number 0 *)
    intros bd fs os vs ovs tg w rest Htg. intros v S R rel ok Hbd s fuel0 Hd Hg Hr Hfu.
    destruct (DeserializeTag_wf ok tg rest s 0 w) as (s1 & Et & Hr1); auto; [lia|].
    exists w, 0, s1, v, s1. split; [exact Et|]. destruct (good_VM _ _ _ _ _ Hg) as (pres & xs & os' & -> & _).
    destruct Hg as (Hw & Hc & Hvw). split; [|do 3 (split; [auto; fail|]); rewrite Hvw; split; [econstructor; eauto|auto]].
    destruct Hd as (_ & Hnum & _). apply all_Forall in Hnum.
    assert (Hn0 : ~ In 0 (field_numbers fs os)). { intros Hin. eapply Forall_forall in Hnum; [|exact Hin]. cbn in Hnum. lia. }
    unfold field_numbers in Hn0. rewrite in_app_iff in Hn0. unfold msg_dispatch.
    rewrite find_field_none by tauto. rewrite find_oneof_none by tauto. reflexivity.
  - (* a field *)
    intros bd fs os vs ovs i num k t x tg w bs e x' rest Hf Hx Htg Hff IH. intros v S R rel ok Hbd s fuel0 Hd Hg Hr Hfu. destruct (desc_field _ _ _ _ _ _ Hd Hf) as (Hdt & Hnum & Hcap).
    destruct (DeserializeTag_wf ok tg bs s num w) as (s1 & Et & Hr1); auto; [lia|].
    destruct (good_VM _ _ _ _ _ Hg) as (pres & xs & os' & -> & Hpz & Hpu & Hw & Hwo & Hc & _ & Ev & _). rewrite Ev in Hx.
    destruct (nth_error_len_view _ _ _ _ _ _ _ _ Hw Hf Hx) as (y & Hy & Exy & Hwy).
    pose proof (clean_fields_nth _ _ _ _ _ _ _ _ _ Hf Hy Hc) as Hcy. rewrite Z.add_0_l in Hcy.
    rewrite app_length in Hfu.
    destruct (IH fs i num pres y S R rel ok Hbd s1 fuel0) as (pres' & y' & s' & E & Hr' & Hz' & Hu' & Ha & Hwy' & Hcy' & Hf' & Hdet); auto; try lia.
    destruct (good_field fs os pres xs os' vs ovs i num k t y pres' y' _ Hg Hf Hy Hz' Hu' Ha Hwy' Hcy' eq_refl) as (Hw' & Hc' & Hv').
    exists w, num, s1, (VM pres' (upd i y' xs) os'), s'. split; [exact Et|]. split.
    + unfold msg_dispatch. rewrite (desc_find_field fuel0 _ _ _ _ _ _ Hd Hf). rewrite (aget_nat _ _ _ Hy). cbn [bind]. rewrite E.
      cbn [bind]. rewrite aset_nat by (eapply nth_error_lt; eauto). reflexivity.
    + do 3 (split; [auto; fail|]). rewrite Hv'. split; [|intros Hdt'; now rewrite (Hdet Hdt')].
      eapply (rread_field d bd fs os vs ovs i num k t x); eauto. now rewrite Ev.
  - (* oneof, wire type *)
    intros bd fs os vs ovs j ms num t o tg w bs Hms Hlk Ho Htg Hw. intros v S R rel ok Hbd s fuel0 Hd Hg Hr Hfu. destruct (desc_member _ _ _ _ _ _ Hd Hms Hlk) as (Hdt & Hnum).
    destruct (DeserializeTag_wf ok tg bs s num w) as (s1 & Et & Hr1); auto; [lia|].
    destruct (good_VM _ _ _ _ _ Hg) as (pres & xs & os' & -> & _ & _ & _ & Hwo & _ & Hco & _ & Ev). rewrite Ev in Ho.
    destruct (view_oneofs_nth _ _ _ _ _ Hms Ho) as (o' & Hoj & Evo).
    set (dms := map (fun '(n, t) => (n, t, deserialize fuel0 t)) ms).
    assert (Hm : find_member dms num = Some (t, deserialize fuel0 t)).
    { unfold dms. rewrite find_member_map, Hlk. reflexivity. }
    set (x1 := if num =? fst o' then snd o' else placement_new t).
    assert (H1 : (if num =? fst o' then o' else oneof_init dms num o') = (num, x1)).
    { unfold x1. destruct (Z.eqb_spec num (fst o')) as [->|]; [destruct o'; reflexivity|].
      unfold oneof_init. rewrite Hm. destruct t as [[]| |]; reflexivity. }
    assert (Hl0 : lookup ms 0 = None). { destruct (lookup ms 0) as [t0|] eqn:E0; [|reflexivity].
      destruct (desc_member _ _ _ _ _ _ Hd Hms E0). lia. }
    set (o2 := (0, if is_enum t then VS 0 else VIndet)).
    exists w, num, s1, (VM pres xs (upd j o2 os')), s1. split; [exact Et|].
    assert (Hgo : good (EMsg fs os) (VM pres xs (upd j o2 os')) (SvM vs (upd j (0, SvNone) ovs))).
    { eapply good_oneof; eauto; unfold o2, wt_oneof, clean_oneof, view_oneof; cbn [fst];
        first [rewrite (lookup_map wt), Hl0 | rewrite (lookup_map clean), Hl0 | rewrite (lookup_map view), Hl0]; cbn [option_map]; auto. }
    split; [|split; [exact Hr1|]; destruct Hgo as (Hw' & Hc' & Hv'); split; [exact Hw'|]; split; [exact Hc'|]; rewrite Hv'; split; [|auto];
             eapply (rread_oneof_wiretype d bd fs os vs ovs j ms num t o); eauto; rewrite Ev; exact Ho].
    unfold msg_dispatch. destruct (desc_find_oneof fuel0 _ _ _ _ _ _ Hd Hms Hlk) as (-> & ->).
    rewrite (aget_nat _ _ _ Hoj). cbn [bind]. unfold oneof_deserialize. fold dms. rewrite H1. cbn [fst snd]. rewrite Hm.
    rewrite elem_wrong_wiretype by assumption. cbn [bind is_ok]. unfold oneof_clear. cbn [fst]. rewrite Hm.
    rewrite aset_nat by (eapply nth_error_lt; eauto). reflexivity.
  - (* oneof, payload *)
    intros bd fs os vs ovs j ms num t o tg bs e x' rest Hms Hlk Ho Htg Hef IH. intros v S R rel ok Hbd s fuel0 Hd Hg Hr Hfu. destruct (desc_member _ _ _ _ _ _ Hd Hms Hlk) as (Hdt & Hnum).
    destruct (DeserializeTag_wf ok tg bs s num (elem_wiretype t)) as (s1 & Et & Hr1); auto; [lia|].
    destruct (good_VM _ _ _ _ _ Hg) as (pres & xs & os' & -> & _ & _ & _ & Hwo & _ & Hco & _ & Ev). rewrite Ev in Ho.
    destruct (view_oneofs_nth _ _ _ _ _ Hms Ho) as (o' & Hoj & Evo).
    destruct (all2_nth _ _ _ _ _ Hwo Hms) as (o'' & Ho'' & Hwo'). rewrite Hoj in Ho''. injection Ho'' as <-.
    destruct (all2_nth _ _ _ _ _ Hco Hms) as (o'' & Ho'' & Hco'). rewrite Hoj in Ho''. injection Ho'' as <-.
    set (dms := map (fun '(n, t) => (n, t, deserialize fuel0 t)) ms).
    assert (Hm : find_member dms num = Some (t, deserialize fuel0 t)).
    { unfold dms. rewrite find_member_map, Hlk. reflexivity. }
    set (x1 := if num =? fst o' then snd o' else placement_new t).
    assert (H1 : (if num =? fst o' then o' else oneof_init dms num o') = (num, x1)).
    { unfold x1. destruct (Z.eqb_spec num (fst o')) as [->|]; [destruct o'; reflexivity|].
      unfold oneof_init. rewrite Hm. destruct t as [[]| |]; reflexivity. }
    assert (Hl0 : lookup ms 0 = None). { destruct (lookup ms 0) as [t0|] eqn:E0; [|reflexivity].
      destruct (desc_member _ _ _ _ _ _ Hd Hms E0). lia. }
    assert (Hre : ready t x1 (member_start num t o)).
    { unfold x1, member_start. unfold wt_oneof, clean_oneof, view_oneof in *. rewrite (lookup_map wt) in Hwo'. rewrite (lookup_map clean) in Hco'.
      rewrite (lookup_map view) in Evo.
      destruct (Z.eqb_spec num (fst o')) as [E|E].
      - rewrite <- E, Hlk in *. cbn [option_map] in *. rewrite Evo. cbn [fst snd opt_start]. rewrite Z.eqb_refl. apply good_ready. now split.
      - assert (En : num <> fst o). { rewrite Evo. destruct (lookup ms (fst o')); cbn [option_map fst]; lia. }
        destruct (Z.eqb_spec num (fst o)); [contradiction|]. now apply placement_ready. }
    rewrite app_length in Hfu.
    destruct (IH x1 S R rel ok Hbd s1 fuel0) as (x2 & s2 & Ee & Hr2 & Hgood & _); auto; [lia|].
    set (o2 := match e with NoErrors => (num, x2) | _ => (0, if is_enum t then VS 0 else VIndet) end).
    exists (elem_wiretype t), num, s1, (VM pres xs (upd j o2 os')), s2. split; [exact Et|].
    assert (Hgo : good (EMsg fs os) (VM pres xs (upd j o2 os')) (SvM vs (upd j (member_result e num x') ovs))).
    { assert (Hcase : (e = NoErrors /\ good t x2 x') \/ (o2 = (0, if is_enum t then VS 0 else VIndet) /\ member_result e num x' = (0, SvNone))).
      { unfold o2. destruct e; auto. }
      destruct Hcase as [[-> (Hw2 & Hc2 & Hv2)]|[-> ->]].
      - unfold o2, member_result. eapply good_oneof; eauto; unfold wt_oneof, clean_oneof, view_oneof; cbn [fst snd];
        first [rewrite (lookup_map wt), Hlk | rewrite (lookup_map clean), Hlk | rewrite (lookup_map view), Hlk]; cbn [option_map]; auto.
        now rewrite Hv2.
      - eapply good_oneof; eauto; unfold wt_oneof, clean_oneof, view_oneof; cbn [fst];
        first [rewrite (lookup_map wt), Hl0 | rewrite (lookup_map clean), Hl0 | rewrite (lookup_map view), Hl0]; cbn [option_map]; auto. }
    split; [|split; [exact Hr2|]; destruct Hgo as (Hw' & Hc' & Hv'); split; [exact Hw'|]; split; [exact Hc'|]; rewrite Hv'; split; [|auto];
             eapply (rread_oneof d bd fs os vs ovs j ms num t o); eauto; now rewrite Ev].
    unfold msg_dispatch. destruct (desc_find_oneof fuel0 _ _ _ _ _ _ Hd Hms Hlk) as (-> & ->).
    rewrite (aget_nat _ _ _ Hoj). cbn [bind]. unfold oneof_deserialize. fold dms. rewrite H1. cbn [fst snd]. rewrite Hm.
    rewrite Ee. cbn [bind]. unfold o2. destruct e; cbn [is_ok]; unfold oneof_clear; cbn [fst]; rewrite ?Hm;
    rewrite aset_nat by (eapply nth_error_lt; eauto); reflexivity.
  - (* unknown, skipped *)
    intros bd fs os vs ovs num tg w r rest Hn H0 Htg Hs.
    intros v S R rel ok Hbd s fuel0 Hd Hg Hr Hfu. rewrite !app_length in Hfu.
    destruct (proj2 (proj2 decode_ok) _ _ _ _ _ (rdec_unknown fs os vs ovs num w tg r Hn H0 Htg Hs eq_refl)) as (_ & Hdec).
    destruct (Hdec v S R rel ok rest s fuel0) as (w1 & id & s1 & v' & s2 & Et & E & Hr2 & (Hw' & Hc' & Hv')); auto.
    { rewrite <- app_assoc. exact Hr. } { rewrite app_length. lia. }
    exists w1, id, s1, v', s2. do 5 (split; [auto; fail|]). rewrite Hv'. split; [|auto]. eapply rread_unknown; eauto.
  - (* unknown *)
    intros bd fs os vs ovs num tg w bs e rest Hn H0 Htg Hs. 
    intros v S R rel ok Hbd s fuel0 Hd Hg Hr Hfu.
    destruct (DeserializeTag_wf ok tg bs s num w) as (s1 & Et & Hr1); auto; [lia|].
    destruct (skip_unknown_fails ok w bs e rest s1 Hs Hr1) as (s2 & Esk & Hr2).
    exists w, num, s1, v, s2. split; [exact Et|]. destruct (good_VM _ _ _ _ _ Hg) as (pres & xs & os' & -> & _).
    destruct Hg as (Hw & Hc & Hvw). split; [|do 3 (split; [auto; fail|]); rewrite Hvw; split; [eapply rread_unknown_fails; eauto|auto]].
    pose proof Hn as Hn'. unfold field_numbers in Hn. rewrite in_app_iff in Hn. unfold msg_dispatch.
    rewrite find_field_none by tauto. rewrite find_oneof_none by tauto.
    destruct (Z.eqb_spec num 0); [lia|]. rewrite Esk. reflexivity.
  - (* unknown, longer than what is left *)
    intros bd fs os vs ovs num tg l n p Hb Hn H0 Htg Hl Hlt.
    intros v S R rel ok Hbd s fuel0 Hd Hg Hr Hfu.
    destruct (DeserializeTag_wf ok tg (l ++ p) s num LENDEL) as (s1 & Et & Hr1); auto; [lia|].
    destruct (DeserializeVarint_wf ok 32 l p s1) as (s2 & Ev & Hr2); auto; [left; reflexivity|apply Hl|].
    destruct (rb_advance_n _ _ (Hbd Hb) s2 p n Hr2 Hlt) as (k & s3 & Ea & Hr3).
    exists LENDEL, num, s1, v, s3. split; [exact Et|]. destruct (good_VM _ _ _ _ _ Hg) as (pres & xs & os' & -> & _).
    destruct Hg as (Hw & Hc & Hvw). split; [|do 3 (split; [auto; fail|]); rewrite Hvw; split; [eapply rread_unknown_rest; eauto|auto]].
    pose proof Hn as Hn'. unfold field_numbers in Hn. rewrite in_app_iff in Hn. unfold msg_dispatch.
    rewrite find_field_none by tauto. rewrite find_oneof_none by tauto.
    destruct (Z.eqb_spec num 0); [lia|]. cbn [skip_unknown_field]. unfold skip_length_delimited. rewrite Ev. cbn [bind].
    destruct Hl as (_ & Hlv). rewrite Hlv, Ea. reflexivity.
  - (* unknown, group tag *)
    intros bd fs os vs ovs num tg w rest Hn H0 Hgr Htg.
    intros v S R rel ok Hbd s fuel0 Hd Hg Hr Hfu.
    destruct (DeserializeTag_wf ok tg rest s num w) as (s1 & Et & Hr1); auto; [lia|].
    exists w, num, s1, v, s1. split; [exact Et|]. destruct (good_VM _ _ _ _ _ Hg) as (pres & xs & os' & -> & _).
    destruct Hg as (Hw & Hc & Hvw). split; [|do 3 (split; [auto; fail|]); rewrite Hvw; split; [eapply rread_unknown_group; eauto|auto]].
    pose proof Hn as Hn'. unfold field_numbers in Hn. rewrite in_app_iff in Hn. unfold msg_dispatch.
    rewrite find_field_none by tauto. rewrite find_oneof_none by tauto.
    destruct (Z.eqb_spec num 0); [lia|]. destruct Hgr as [-> | ->]; reflexivity.
  - (* plain, wire type *)
    intros bd t w x bs Hw. intros fs i num pres v S R rel ok Hbd s fuel Hf Hd _ Hz Hu Hwv Hc Hv Hr _.
    exists pres, v, s. unfold field_deserialize. rewrite elem_wrong_wiretype by assumption. cbn [bind].
    do 4 (split; [auto; fail|]). split; [apply agree_but_refl|]. do 2 (split; [auto; fail|]). rewrite Hv. split; [now constructor|auto].
  - (* optional, wire type *)
    intros bd t w x bs Hw. intros fs i num pres v S R rel ok Hbd s fuel Hf Hd _ Hz Hu Hwv Hc Hv Hr _.
    destruct (opt_present _ _ _ _ _ Hf Hz Hu) as (pres' & E & Hz' & Hu' & Ha & Hp).
    destruct (clean_opt_view _ _ _ _ _ Hc Hv) as (Hc1 & Hv1).
    exists pres', v, s. unfold field_deserialize. rewrite E. cbn [bind]. rewrite elem_wrong_wiretype by assumption. cbn [bind].
    do 6 (split; [auto; fail|]). cbn [clean_field view_field]. rewrite Hp. split; [split; [exact Hc1|discriminate]|].
    rewrite Hv1, <- opt_start_shown. split; [now constructor|auto].
  - (* repeated, wire type *)
    intros bd max t w x bs Hw. intros fs i num pres v S R rel ok Hbd s fuel Hf Hd _ Hz Hu Hwv Hc Hv Hr _.
    exists pres, v, s. unfold field_deserialize, rep_deserialize_check_type. rewrite wt_eqb_neq by congruence. cbn [bind].
    do 4 (split; [auto; fail|]). split; [apply agree_but_refl|]. do 2 (split; [auto; fail|]). rewrite Hv. split; [now constructor|auto].
  - (* plain, payload *)
    intros bd t x bs e x' rest Hef IH. intros fs i num pres v S R rel ok Hbd s fuel Hf Hd _ Hz Hu Hwv Hc Hv Hr Hfu.
    cbn [wt_field clean_field view_field] in *. subst x.
    destruct (IH v S R rel ok Hbd s fuel) as (v' & s' & E & Hr' & _ & Hg); auto. { apply good_ready; now split. }
    destruct (Hg Hwv Hc) as (Hw' & Hc' & Hf' & Hdet).
    exists pres, v', s'. unfold field_deserialize. rewrite E. cbn [bind].
    do 4 (split; [auto; fail|]). split; [apply agree_but_refl|]. do 2 (split; [auto; fail|]). cbn [view_field]. split; [now constructor|auto].
  - (* optional, payload *)
    intros bd t x bs e x' rest Hef IH. intros fs i num pres v S R rel ok Hbd s fuel Hf Hd _ Hz Hu Hwv Hc Hv Hr Hfu.
    destruct (opt_present _ _ _ _ _ Hf Hz Hu) as (pres' & E & Hz' & Hu' & Ha & Hp).
    destruct (clean_opt_view _ _ _ _ _ Hc Hv) as (Hc1 & Hv1).
    destruct (IH v S R rel ok Hbd s fuel) as (v' & s' & E2 & Hr' & _ & Hg); auto. { apply good_ready; now split. }
    destruct (Hg Hwv Hc1) as (Hw' & Hc' & Hf' & Hdet).
    exists pres', v', s'. unfold field_deserialize. rewrite E. cbn [bind]. rewrite E2. cbn [bind].
    do 6 (split; [auto; fail|]). cbn [clean_field view_field]. rewrite Hp. split; [split; [exact Hc'|discriminate]|].
    rewrite Hv1 in Hf'. split; [now constructor|intros Hdt; now rewrite Hdet].
  - (* dropped for recursion *)
    intros bd t w x bs fs i num pres v S R rel ok Hbd s fuel Hf Hd _ Hz Hu Hwv Hc Hv Hr _.
    exists pres, v, s. unfold field_deserialize.
    do 4 (split; [auto; fail|]). split; [apply agree_but_refl|]. do 2 (split; [auto; fail|]). rewrite Hv. split; [now constructor|auto].
  - (* repeated, full *)
    intros bd max t old bs Hpk Hz0. intros fs i num pres v S R rel ok Hbd s fuel Hf Hd Hcap Hz Hu Hwv Hc Hv Hr Hfu.
    destruct (rep_view_parts _ _ _ _ _ _ Hwv Hv) as (len & data & -> & Hl & Hzd & Hwd & -> & Hlen).
    exists pres, (VR len data), s. unfold field_deserialize, rep_deserialize_check_type. rewrite wt_eqb_refl.
    split. { destruct t; [discriminate Hpk| |]; unfold rep_deserialize_unpacked; destruct (Z.ltb_spec len (zlen data)); try lia; reflexivity. }
    do 3 (split; [auto; fail|]). split; [apply agree_but_refl|]. do 2 (split; [auto; fail|]). rewrite Hv. split; [now constructor|auto].
  - (* repeated messages, length *)
    intros bd max fs' os' old bs e rest Hlt Hvf. pose proof (varint_fails_err _ _ _ _ Hvf) as He.
    intros fs i num pres v S R rel ok Hbd s fuel Hf Hd Hcap Hz Hu Hwv Hc Hv Hr Hfu.
    destruct (rep_view_parts _ _ _ _ _ _ Hwv Hv) as (len & data & -> & Hl & Hzd & Hwd & -> & Hlen).
    destruct (DeserializeVarint_fails ok 32 bs e rest s) as (s1 & E & Hr1); auto; [left; reflexivity|].
    exists pres, (VR len data), s1. split.
    { unfold field_deserialize, rep_deserialize_check_type. rewrite wt_eqb_refl. unfold rep_deserialize_unpacked, rep_get, capacity_ok in *.
      destruct (Z.ltb_spec len (zlen data)); [|lia]. rewrite u32_small by lia. rewrite Z.min_l by lia.
      destruct (aget_ok data len) as (y & -> & _); [lia|]. cbn [bind]. rewrite E. cbn [bind]. destruct e; try contradiction; reflexivity. }
    do 3 (split; [auto; fail|]). split; [apply agree_but_refl|]. do 2 (split; [auto; fail|]). rewrite Hv. split; [now constructor|auto].
  - (* repeated messages, payload *)
    intros bd max fs' os' old l n p e new rest tail Hlt Hl Hsp Hm IH. intros fs i num pres v S R rel ok Hbd s fuel Hf Hd Hcap Hz Hu Hwv Hc Hv Hr Hfu.
    destruct (rep_view_parts _ _ _ _ _ _ Hwv Hv) as (len & data & -> & Hln & Hzd & Hwd & -> & Hlen).
    rewrite !app_length in Hfu. destruct Hl as (Hl & Hlv).
    destruct (DeserializeVarint_wf ok 32 l (p ++ tail) s) as (s1 & E & Hr1); auto; [left; reflexivity|]. rewrite Hlv in E.
    unfold capacity_ok in Hcap. destruct (rep_next (EMsg fs' os') (deserialize fuel (EMsg fs' os')) S R len data s) as (y & Hy & Hnext); [lia|lia|].
    cbn [clean_field] in Hc. apply all_Forall in Hc, Hwd. rewrite (skipn_cons_nth _ _ _ Hy) in Hc. apply Forall_cons_iff in Hc as [[Hcy Hvy] Hct].
    assert (Hwy : wt (EMsg fs' os') y). { eapply Forall_forall in Hwd; [exact Hwd|]. eapply nth_error_In; eauto. }
    destruct (section_rel R rel bd s1 n p tail ok Hbd Hsp Hr1) as (srel & sok & sbd & Hrs & Hpar).
    destruct (IH y _ (sec_ops R) srel sok sbd (mk_section R s1 n) fuel fuel)
      as (y' & s' & E' & Hs' & Hw' & Hc' & Hf' & Hdet); auto; try lia. { now split. }
    exists pres, (VR (len + 1) (upd (Z.to_nat len) y' data)), (sec_parent s'). split.
    { unfold field_deserialize, rep_deserialize_check_type. rewrite wt_eqb_refl.
      rewrite (Hnext eq_refl e y' (sec_parent s')); [reflexivity| |].
      - unfold elem_deserialize_check_type, deserialize_section. rewrite wt_eqb_refl. rewrite E. cbn [bind deserialize]. unfold msg_deserialize.
        change (map (fun '(num, k, t) => (num, k, t, deserialize fuel t)) fs') with (dtab fuel fs').
        change (map (map (fun '(num, t) => (num, t, deserialize fuel t))) os') with (dotab fuel os').
        rewrite E'. reflexivity.
      - intros. eauto. }
    split; [now apply Hpar|]. do 2 (split; [auto; fail|]). split; [apply agree_but_refl|].
    split; [|split].
    + cbn [wt_field]. split; [lia|]. rewrite zlen_upd. split; [auto|]. apply all_Forall. apply Forall_upd; auto.
    + cbn [clean_field]. apply all_Forall. replace (Z.to_nat (len + 1)) with (Datatypes.S (Z.to_nat len)) by lia. rewrite skipn_S_upd. exact Hct.
    + cbn [view_field]. replace (Z.to_nat (len + 1)) with (Datatypes.S (Z.to_nat len)) by lia.
      rewrite firstn_S_upd by (unfold zlen in *; lia). rewrite map_app. cbn [map].
      split; [apply (fread_rep_msg d bd max fs' os' _ l n); auto; now split|intros Hdt; now rewrite Hdet].
  - (* repeated strings *)
    intros bd max st cap old l p rest Hlt Hl Hn. intros fs i num pres v S R rel ok Hbd s fuel Hf Hd Hcap Hz Hu Hwv Hc Hv Hr Hfu.
    destruct (rep_view_parts _ _ _ _ _ _ Hwv Hv) as (len & data & -> & Hln & Hzd & Hwd & -> & Hlen).
    unfold capacity_ok in Hcap. destruct (rep_next (EBytes st cap) (deserialize fuel (EBytes st cap)) S R len data s) as (y & Hy & Hnext); [lia|lia|].
    apply all_Forall in Hwd.
    assert (Hwy : wt (EBytes st cap) y). { eapply Forall_forall in Hwd; [exact Hwd|]. eapply nth_error_In; eauto. }
    destruct (bytes_deserialize_full ok st cap p l rest y s) as (y' & s' & E & Hr' & (Hw' & Hc' & Hv')); auto.
    exists pres, (VR (len + 1) (upd (Z.to_nat len) y' data)), s'. split.
    { unfold field_deserialize, rep_deserialize_check_type. rewrite wt_eqb_refl.
      rewrite (Hnext eq_refl NoErrors y' s'); [reflexivity| |]. 2:{ intros; discriminate. }
      unfold elem_deserialize_check_type. rewrite wt_eqb_refl. exact E. }
    split; [exact Hr'|]. do 2 (split; [auto; fail|]). split; [apply agree_but_refl|].
    split; [|split].
    + cbn [wt_field]. split; [lia|]. rewrite zlen_upd. split; [auto|]. apply all_Forall. apply Forall_upd; auto.
    + exact I.
    + cbn [view_field]. replace (Z.to_nat (len + 1)) with (Datatypes.S (Z.to_nat len)) by lia.
      rewrite firstn_S_upd by (unfold zlen in *; lia). rewrite map_app. cbn [map].
      assert (Ey : view (EBytes st cap) y' = SvB p) by exact Hv'. rewrite Ey.
      split; [eapply fread_rep_bytes; eauto|reflexivity].
  - (* repeated strings, cut short *)
    intros bd max st cap old l n p Hlt Hl Hn. intros fs i num pres v S R rel ok Hbd s fuel Hf Hd Hcap Hz Hu Hwv Hc Hv Hr Hfu.
    destruct (rep_view_parts _ _ _ _ _ _ Hwv Hv) as (len & data & -> & Hln & Hzd & Hwd & -> & Hlen).
    unfold capacity_ok in Hcap. destruct (rep_next (EBytes st cap) (deserialize fuel (EBytes st cap)) S R len data s) as (y & Hy & Hnext); [lia|lia|].
    apply all_Forall in Hwd.
    assert (Hwy : wt (EBytes st cap) y). { eapply Forall_forall in Hwd; [exact Hwd|]. eapply nth_error_In; eauto. }
    destruct (bytes_deserialize_cut ok st cap l n p y s) as (y' & s' & E & Hr' & (Hw' & Hc' & Hv')); auto.
    exists pres, (VR (len + 1) (upd (Z.to_nat len) y' data)), s'. split.
    { unfold field_deserialize, rep_deserialize_check_type. rewrite wt_eqb_refl.
      rewrite (Hnext eq_refl EndOfBuffer y' s'); [reflexivity| |]. 2:{ intros; discriminate. }
      unfold elem_deserialize_check_type. rewrite wt_eqb_refl. exact E. }
    split; [exact Hr'|]. do 2 (split; [auto; fail|]). split; [apply agree_but_refl|].
    split; [|split].
    + cbn [wt_field]. split; [lia|]. rewrite zlen_upd. split; [auto|]. apply all_Forall. apply Forall_upd; auto.
    + exact I.
    + cbn [view_field]. replace (Z.to_nat (len + 1)) with (Datatypes.S (Z.to_nat len)) by lia.
      rewrite firstn_S_upd by (unfold zlen in *; lia). rewrite map_app. cbn [map].
      assert (Ey : view (EBytes st cap) y' = SvB p) by exact Hv'. rewrite Ey.
      split; [eapply fread_rep_bytes_cut; eauto|reflexivity].
  - (* repeated strings, length *)
    intros bd max st cap old x bs e rest Hd0 Hlt Hvf.
    pose proof (varint_fails_err _ _ _ _ Hvf) as He.
    intros fs i num pres v S R rel ok Hbd s fuel Hf Hd Hcap Hz Hu Hwv Hc Hv Hr Hfu.
    destruct (rep_view_parts _ _ _ _ _ _ Hwv Hv) as (len & data & -> & Hln & Hzd & Hwd & -> & Hlen).
    unfold capacity_ok in Hcap. destruct (rep_next (EBytes st cap) (deserialize fuel (EBytes st cap)) S R len data s) as (y & Hy & Hnext); [lia|lia|].
    apply all_Forall in Hwd.
    assert (Hwy : wt (EBytes st cap) y). { eapply Forall_forall in Hwd; [exact Hwd|]. eapply nth_error_In; eauto. }
    destruct (DeserializeVarint_fails ok 32 bs e rest s) as (s' & E & Hr'); auto; [left; reflexivity|].
    exists pres, (VR (len + 1) (upd (Z.to_nat len) y data)), s'. split.
    { unfold field_deserialize, rep_deserialize_check_type. rewrite wt_eqb_refl.
      rewrite (Hnext eq_refl e y s'); [reflexivity| |]. 2:{ intros; discriminate. }
      unfold elem_deserialize_check_type. rewrite wt_eqb_refl. cbn [deserialize]. unfold bytes_deserialize. rewrite E. cbn [bind].
      destruct e; try contradiction; reflexivity. }
    split; [exact Hr'|]. do 2 (split; [auto; fail|]). split; [apply agree_but_refl|].
    split; [|split].
    + cbn [wt_field]. split; [lia|]. rewrite zlen_upd. split; [auto|]. apply all_Forall. apply Forall_upd; auto.
    + exact I.
    + cbn [view_field]. replace (Z.to_nat (len + 1)) with (Datatypes.S (Z.to_nat len)) by lia.
      rewrite firstn_S_upd by (unfold zlen in *; lia). rewrite map_app. cbn [map].
      destruct y as [| |ly dy| |]; try contradiction. cbn [view] in *.
      split; [eapply fread_rep_bytes_length; eauto|intros [?|?]; congruence].
  - (* repeated strings, too long *)
    intros bd max st cap old x l n rest Hd0 Hlt Hl Hn.
    pose proof Hl as Hl0. destruct Hl as (Hl & Hlv).
    intros fs i num pres v S R rel ok Hbd s fuel Hf Hd Hcap Hz Hu Hwv Hc Hv Hr Hfu.
    destruct (rep_view_parts _ _ _ _ _ _ Hwv Hv) as (len & data & -> & Hln & Hzd & Hwd & -> & Hlen).
    unfold capacity_ok in Hcap. destruct (rep_next (EBytes st cap) (deserialize fuel (EBytes st cap)) S R len data s) as (y & Hy & Hnext); [lia|lia|].
    apply all_Forall in Hwd.
    assert (Hwy : wt (EBytes st cap) y). { eapply Forall_forall in Hwd; [exact Hwd|]. eapply nth_error_In; eauto. }
    destruct (DeserializeVarint_wf ok 32 l rest s) as (s' & E & Hr'); auto; [left; reflexivity|].
    exists pres, (VR (len + 1) (upd (Z.to_nat len) y data)), s'. split.
    { unfold field_deserialize, rep_deserialize_check_type. rewrite wt_eqb_refl.
      rewrite (Hnext eq_refl ArrayFull y s'); [reflexivity| |]. 2:{ intros; discriminate. }
      unfold elem_deserialize_check_type. rewrite wt_eqb_refl. cbn [deserialize]. unfold bytes_deserialize. rewrite E. cbn [bind].
      rewrite Hlv. destruct (Z.leb_spec n cap); [lia|reflexivity]. }
    split; [exact Hr'|]. do 2 (split; [auto; fail|]). split; [apply agree_but_refl|].
    split; [|split].
    + cbn [wt_field]. split; [lia|]. rewrite zlen_upd. split; [auto|]. apply all_Forall. apply Forall_upd; auto.
    + exact I.
    + cbn [view_field]. replace (Z.to_nat (len + 1)) with (Datatypes.S (Z.to_nat len)) by lia.
      rewrite firstn_S_upd by (unfold zlen in *; lia). rewrite map_app. cbn [map].
      destruct y as [| |ly dy| |]; try contradiction. cbn [view] in *.
      split; [eapply fread_rep_bytes_too_long; eauto|intros [?|?]; congruence].
  - (* packed, length *)
    intros bd max sc old bs e rest Hvf fs i num pres v S R rel ok Hbd s fuel Hf Hd Hcap Hz Hu Hwv Hc Hv Hr Hfu.
    destruct (rep_view_parts _ _ _ _ _ _ Hwv Hv) as (len & data & -> & Hln & Hzd & Hwd & -> & Hlen).
    destruct (DeserializeVarint_fails ok 32 bs e rest s) as (s1 & E & Hr1); auto; [left; reflexivity|].
    destruct (packed_loop (sec_ok R rel rest ok) sc max [] [] (packed_nil sc) fuel VIndet len data (mk_section R s1 0))
      as (data' & s3 & E3 & Hr3 & Hz' & Hw' & Hfn); auto; try (cbn; lia).
    { apply mk_section_spans; [auto|now left|exact Hr1]. }
    rewrite zlen_nil, Z.add_0_r in *. cbn [map] in Hfn. rewrite app_nil_r in Hfn.
    exists pres, (VR len data'), (sec_parent s3). split.
    { unfold field_deserialize, rep_deserialize_check_type. rewrite wt_eqb_refl. unfold rep_deserialize_packed.
      rewrite E. cbn [bind]. rewrite E3. reflexivity. }
    split; [apply Hr3|]. do 2 (split; [auto; fail|]). split; [apply agree_but_refl|].
    split; [|split; [exact I|]].
    + cbn [wt_field]. auto.
    + cbn [view_field]. rewrite Hfn. split; [eapply fread_packed_length; eauto|auto].
  - (* packed *)
    intros bd max sc old l n q zs r tail Hl Hsp Hp Hm Hs. 
    intros fs i num pres v S R rel ok Hbd s fuel Hf Hd Hcap Hz Hu Hwv Hc Hv Hr Hfu.
    destruct (rep_view_parts _ _ _ _ _ _ Hwv Hv) as (len & data & -> & Hln & Hzd & Hwd & -> & Hlen).
    pose proof Hl as Hl0. destruct Hl as (Hl & Hlv). pose proof (zlen_nonneg zs).
    destruct (DeserializeVarint_wf ok 32 l ((q ++ r) ++ tail) s) as (s1 & E & Hr1); auto; [left; reflexivity|]. rewrite Hlv in E.
    destruct (packed_loop_fails (sec_ok R rel tail ok) sc max q zs Hp r EndOfBuffer [] fuel VIndet len data (mk_section R s1 n))
      as (data' & s3 & E3 & Hr3 & Hz' & Hw' & Hfn); auto; try lia.
    { now apply mk_section_spans. } { rewrite !app_length in *. lia. }
    exists pres, (VR (len + zlen zs) data'), (sec_parent s3). split.
    { unfold field_deserialize, rep_deserialize_check_type. rewrite wt_eqb_refl. unfold rep_deserialize_packed.
      rewrite E. cbn [bind]. rewrite E3. reflexivity. }
    split; [apply Hr3|]. do 2 (split; [auto; fail|]). split; [apply agree_but_refl|].
    split; [|split; [exact I|]].
    + cbn [wt_field]. split; [lia|]. auto.
    + cbn [view_field]. rewrite Hfn, map_app, map_view_VS. split; [eapply fread_packed; eauto|auto].
  - (* packed, element *)
    intros bd max sc old l n q zs r e rest tail Hl Hsp Hp Hm Hs Hne. 
    intros fs i num pres v S R rel ok Hbd s fuel Hf Hd Hcap Hz Hu Hwv Hc Hv Hr Hfu.
    destruct (rep_view_parts _ _ _ _ _ _ Hwv Hv) as (len & data & -> & Hln & Hzd & Hwd & -> & Hlen).
    pose proof Hl as Hl0. destruct Hl as (Hl & Hlv). pose proof (zlen_nonneg zs).
    destruct (DeserializeVarint_wf ok 32 l ((q ++ r) ++ tail) s) as (s1 & E & Hr1); auto; [left; reflexivity|]. rewrite Hlv in E.
    destruct (packed_loop_fails (sec_ok R rel tail ok) sc max q zs Hp r e rest fuel VIndet len data (mk_section R s1 n))
      as (data' & s3 & E3 & Hr3 & Hz' & Hw' & Hfn); auto; try lia.
    { now apply mk_section_spans. } { rewrite !app_length in *. lia. }
    exists pres, (VR (len + zlen zs) data'), (sec_parent s3). split.
    { unfold field_deserialize, rep_deserialize_check_type. rewrite wt_eqb_refl. unfold rep_deserialize_packed.
      rewrite E. cbn [bind]. rewrite E3. cbn [bind]. destruct e; try contradiction; reflexivity. }
    split; [apply Hr3|]. do 2 (split; [auto; fail|]). split; [apply agree_but_refl|].
    split; [|split; [exact I|]].
    + cbn [wt_field]. split; [lia|]. auto.
    + cbn [view_field]. rewrite Hfn, map_app, map_view_VS. split; [eapply fread_packed_fails; eauto|auto].
  - (* packed, full *)
    intros bd max sc old l n q zs c z r tail Hl Hsp Hp Hm Hs. intros fs i num pres v S R rel ok Hbd s fuel Hf Hd Hcap Hz Hu Hwv Hc Hv Hr Hfu.
    destruct (rep_view_parts _ _ _ _ _ _ Hwv Hv) as (len & data & -> & Hln & Hzd & Hwd & -> & Hlen).
    pose proof Hl as Hl0. destruct Hl as (Hl & Hlv). pose proof (zlen_nonneg zs).
    destruct (DeserializeVarint_wf ok 32 l ((q ++ c ++ r) ++ tail) s) as (s1 & E & Hr1); auto; [left; reflexivity|]. rewrite Hlv in E.
    destruct (packed_loop_full (sec_ok R rel tail ok) sc max q zs Hp c z r fuel VIndet len data (mk_section R s1 n))
      as (data' & s3 & E3 & Hr3 & Hz' & Hw' & Hfn); auto; try lia.
    { now apply mk_section_spans. } { rewrite !app_length in *. lia. }
    exists pres, (VR (len + zlen zs) data'), (sec_parent s3). split.
    { unfold field_deserialize, rep_deserialize_check_type. rewrite wt_eqb_refl. unfold rep_deserialize_packed.
      rewrite E. cbn [bind]. rewrite E3. reflexivity. }
    split; [apply Hr3|]. do 2 (split; [auto; fail|]). split; [apply agree_but_refl|].
    split; [|split; [exact I|]].
    + cbn [wt_field]. split; [lia|]. auto.
    + cbn [view_field]. rewrite Hfn, map_app, map_view_VS. split; [eapply fread_packed_full; eauto|auto].
Qed.
