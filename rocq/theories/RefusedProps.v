(** * RefusedProps: what a refused record leaves in a repeated field (C73). *)
From Verif Require Import Base Buffers Wire Schema Fields Message Api Spec SpecApi SpecHistory Contracts BitLemmas
  ReadProofs ScalarProofs BufferProofs Struct SerProofs Tables DecodeProofs RoundTrip ClearProofs TidyProofs AssignProofs
  DecodeProps ApiProofs ApiProps AliasProofs SpecRead ReadAny SpecMalformed MalformedProps SpecRefused.
From Coq Require Import ZifyBool ZifyNat ZifyN.
Ltac Zify.zify_post_hook ::= Z.div_mod_to_equations.

(** A refused string takes the slot behind the list into the list, as it is. *)
Lemma refused_slot fs os pres vs ovs i num max st cap len data x tg bs e rest : let m := EMsg fs os in
  desc_ok m -> nth_error fs i = Some (num, KRep max, EBytes st cap) -> nth_error vs i = Some (VR len data) ->
  zlen data < 2 ^ 31 -> 0 <= len < zlen data -> nth_error data (Z.to_nat len) = Some x -> varint32 tg (num * 8 + 2) ->
  refused_string cap bs e rest ->
  forall S (R : rops S) rel, reader_ok R rel -> forall s, rel s (tg ++ bs) -> forall fuel, (0 < fuel)%nat ->
  exists s', deserialize fuel m S R (VM pres vs ovs) s = Done (e, VM pres (upd i (VR (len + 1) data) vs) ovs, s') /\ rel s' rest.
Proof.
  intros m Hd Hf Hv Hz Hl Hx Htg Hb S R rel ok s Hs fuel Hfu. unfold m. cbn [deserialize].
  change (exists s', msg_loop fuel fuel (dtab fuel fs) (dotab fuel os) R (VM pres vs ovs) s = Done (e, VM pres (upd i (VR (len + 1) data) vs) ovs, s') /\ rel s' rest).
  destruct (desc_field fs os i num _ _ Hd Hf) as (Hdt & Hnum & Hcap).
  destruct fuel as [|n]; [lia|]. set (fuel := Datatypes.S n). unfold fuel at 2.
  destruct (DeserializeTag_wf ok tg bs s num LENDEL Htg ltac:(lia) Hs) as (s1 & E1 & Hs1).
  cbn [msg_loop]. rewrite E1. cbn [bind].
  assert (Hne : is_ok e = false /\ e <> EndOfBuffer \/ is_ok e = false) by (right; destruct Hb as [bs e rest Hb|l k rest Hb Hk]; [inversion Hb|]; reflexivity).
  assert (Ebytes : exists s2, deserialize fuel (EBytes st cap) S R x s1 = Done (e, x, s2) /\ rel s2 rest).
  { cbn [deserialize]. unfold bytes_deserialize. destruct Hb as [bs e rest Hb|l k rest Hb Hk].
    - destruct (DeserializeVarint_fails ok 32 bs e rest s1) as (s2 & -> & Hs2); auto; [now left|]. cbn [bind]. exists s2. split; [|exact Hs2]. inversion Hb; reflexivity.
    - destruct Hb as [Hb Hk']. destruct (DeserializeVarint_wf ok 32 l rest s1) as (s2 & -> & Hs2); auto; [now left|]. cbn [bind]. rewrite Hk'. exists s2. split; [|exact Hs2].
      destruct (Z.leb_spec k cap); [lia|reflexivity]. }
  destruct Ebytes as (s2 & E2 & Hs2). exists s2. split; [|exact Hs2].
  assert (Edisp : msg_dispatch fuel (dtab fuel fs) (dotab fuel os) num LENDEL R (VM pres vs ovs) s1
    = Done (e, VM pres (upd i (VR (len + 1) data) vs) ovs, s2)).
  { unfold msg_dispatch. rewrite (desc_find_field fuel _ _ _ _ _ _ Hd Hf). rewrite (aget_nat _ _ _ Hv). cbn [bind field_deserialize rep_deserialize_check_type].
    unfold rep_deserialize_check_type. cbn [wt_eqb wt_code Z.eqb Pos.eqb is_packed]. unfold rep_deserialize_unpacked, rep_get. destruct (Z.ltb_spec len (zlen data)); [|lia].
    rewrite u32_small by lia. rewrite Z.min_l by lia. destruct (Z.leb_spec len len); [|lia].
    assert (Ea : aget data len = Done x). { destruct (aget_ok data len) as (y & -> & Ey); [lia|]. congruence. }
    rewrite Ea. cbn [bind]. rewrite E2. cbn [bind]. rewrite aset_ok by lia. cbn [bind].
    rewrite (upd_same _ _ _ Hx). rewrite aset_nat by (eapply nth_error_lt; exact Hv). reflexivity. }
  rewrite Edisp. cbn [bind]. destruct Hne as [[-> _]| ->]; reflexivity.
Qed.

Lemma refused_string_grows : forall fs os v vs ovs i num max st cap old tg bs e rest, let m := EMsg fs os in
  desc_ok m -> wt m v -> view m v = SvM vs ovs ->
  nth_error fs i = Some (num, KRep max, EBytes st cap) -> nth_error vs i = Some (SvR old) -> zlen old < max ->
  varint32 tg (num * 8 + wt_code LENDEL) -> refused_string cap bs e rest ->
  forall S (R : rops S) rel, reader_ok R rel -> forall s, rel s (tg ++ bs) -> forall fuel, (0 < fuel)%nat ->
  exists x v' s', deserialize fuel m S R v s = Done (e, v', s') /\ rel s' rest
    /\ view m v' = SvM (upd i (SvR (old ++ [SvB x])) vs) ovs.
Proof.
  intros fs os v vs ovs i num max st cap old tg bs e rest m Hd Hw Hv Hf Hx Hlt Htg Hb S R rel ok s Hs fuel Hfu.
  destruct (desc_field fs os i num _ _ Hd Hf) as (Hdt & Hnum & Hcap). unfold capacity_ok in Hcap.
  destruct v as [| | | |pres xs os']; try contradiction. unfold m in Hv. rewrite view_tab in Hv. injection Hv as Hvs Hos.
  pose proof Hw as Hw'. cbn [wt m] in Hw'. destruct Hw' as (_ & _ & Hw1 & _).
  destruct (all2_nth _ _ _ _ _ Hw1 Hf) as (xv & Hxv & Hwx).
  assert (Hv1 := view_fields_nth_fwd fs i 0 pres xs num (KRep max) (EBytes st cap) xv Hf Hxv). rewrite Hvs, Hx in Hv1.
  cbn [wt_field] in Hwx. destruct xv as [| | |len data|]; try contradiction. destruct Hwx as (Hl & Hzd & Hwd).
  cbn [view_field] in Hv1. injection Hv1 as Hold.
  assert (Hlen : zlen old = len). { rewrite Hold. unfold zlen in *. rewrite map_length, firstn_length. lia. }
  assert (Hslot : exists y z, nth_error data (Z.to_nat len) = Some (VB y z)).
  { destruct (nth_error data (Z.to_nat len)) as [y|] eqn:Ey; [|apply nth_error_None in Ey; unfold zlen in *; lia].
    apply all_Forall in Hwd. eapply Forall_forall in Hwd; [|eapply nth_error_In; exact Ey]. destruct y; try contradiction. eauto. }
  destruct Hslot as (y & z & Hslot).
  destruct (refused_slot fs os pres xs os' i num max st cap len data (VB y z) tg bs e rest Hd Hf Hxv ltac:(lia) ltac:(lia) Hslot Htg Hb S R rel ok s Hs fuel Hfu) as (s' & E & Hs').
  exists (firstn (Z.to_nat y) z). do 2 eexists. split; [exact E|]. split; [exact Hs'|].
  unfold m. rewrite view_tab, Hos. f_equal.
  rewrite (view_fields_upd fs i 0 pres pres xs num (KRep max) (EBytes st cap) (VR (len + 1) data) Hf) by (intros q num' t' _ _; reflexivity).
  rewrite Hvs. f_equal. cbn [view_field]. rewrite Z2Nat.inj_add by lia. change (Z.to_nat 1) with 1%nat.
  rewrite Nat.add_1_r, (firstn_S_nth _ data _ Hslot), map_app. rewrite Hold. reflexivity.
Qed.

(** Added, removed again with set_data(), back after a refused record. *)
Lemma refused_brings_back : forall fs os i num max st cap x tg bs e rest, let m := EMsg fs os in let t := EBytes st cap in
  desc_ok m -> nth_error fs i = Some (num, KRep max, t) -> wt t x -> varint32 tg (num * 8 + wt_code LENDEL) ->
  Forall is_byte (tg ++ bs) -> zlen (tg ++ bs) < 2 ^ 32 -> refused_string cap bs e rest ->
  let ops := [OpField i (OpRepAdd x); OpField i (OpRepSetData [] 0)] in
  Forall (op_ok (OElem m)) ops
  /\ (forall fuel, (0 < fuel)%nat -> exists v1 v2 v3, run_ops fuel ops (OElem m) (construct (OElem m)) = Done v1
    /\ view m v1 = sdefault m
    /\ run_op fuel (OpDeserialize (tg ++ bs)) (OElem m) v1 = Done (e, v2)
    /\ nth_error (fields_of (view m v2)) i = Some (SvR [view t x])
    /\ run_op fuel (OpDeserialize (tg ++ bs)) (OElem m) (construct (OElem m)) = Done (e, v3)
    /\ nth_error (fields_of (view m v3)) i = Some (SvR [SvB []])).
Proof.
  intros fs os i num max st cap x tg bs e rest m t Hd Hf Hx Htg Hbytes Hblen Hb ops.
  destruct (desc_field fs os i num _ _ Hd Hf) as (Hdt & Hnum & Hcap). unfold capacity_ok in Hcap.
  assert (Hops : Forall (op_ok (OElem m)) ops).
  { constructor; [|constructor; [|constructor]]; cbn [op_ok m]; rewrite Hf; cbn [op_ok oty_of]; [exact Hx|]. split; [constructor|]. unfold zlen. cbn. lia. }
  split; [exact Hops|]. intros fuel Hfu.
  destruct (default_ok m Hd) as (Hwm & Hcm & Hvm).
  assert (Hdef : exists pres vs ovs, construct (OElem m) = VM pres vs ovs /\ nth_error vs i = Some (VR 0 (zrepeat (default_value t) max))).
  { cbn [construct default_value m]. do 3 eexists. split; [reflexivity|].
    rewrite (map_nth_error _ _ _ Hf). reflexivity. }
  destruct Hdef as (pres & vs & ovs & Econ & Hvi). rewrite Econ. change (default_value m = VM pres vs ovs) in Econ. rewrite Econ in Hwm, Hcm, Hvm.
  destruct (assign_ok t Hdt (default_value t) x) as (x' & Ex' & Hwx' & Htx' & Hvx'); [apply asg_pre_intro; [now apply default_ok|now apply default_tidy]|exact Hx|].
  set (data := zrepeat (default_value t) max) in *. assert (Hzd : zlen data = max) by (apply zlen_zrepeat; lia).
  assert (Hd0 : nth_error data 0 = Some (default_value t)).
  { unfold data, zrepeat. replace (Z.to_nat max) with (S (Z.to_nat (max - 1))) by lia. reflexivity. }
  set (data' := upd 0 x' data).
  set (v1 := VM pres (upd i (VR 0 data') vs) ovs).
  assert (Erun : run_ops fuel ops (OElem m) (VM pres vs ovs) = Done v1).
  { unfold ops. cbn [run_ops run_op m]. rewrite Hf, (aget_nat _ _ _ Hvi). cbn [bind oty_of run_op rep_add].
    destruct (Z.ltb_spec 0 (zlen data)); [|lia].
    assert (Ea : aget data 0 = Done (default_value t)). { destruct (aget_ok data 0) as (y & -> & Ey); [lia|]. cbn [Z.to_nat] in Ey. congruence. }
    rewrite Ea. cbn [bind]. rewrite Ex'. cbn [bind]. rewrite aset_ok by lia. cbn [bind Z.to_nat]. fold data'.
    rewrite aset_nat by (eapply nth_error_lt; exact Hvi). cbn [bind].
    change (0 + 1) with 1. rewrite (aget_nat (upd i (VR 1 data') vs) i (VR 1 data')) by (apply nth_error_upd_same; eapply nth_error_lt; exact Hvi). cbn [bind rep_set_data].
    destruct (Z.leb_spec 0 (zlen data')); [|unfold data' in *; rewrite zlen_upd in *; lia]. cbn [Z.to_nat rep_set_data_loop bind].
    rewrite aset_nat by (rewrite length_upd; eapply nth_error_lt; exact Hvi). cbn [bind]. unfold v1. now rewrite upd_upd. }
  assert (Hrel : rfix_rel (zlen (tg ++ bs)) (rfix_of (tg ++ bs)) (tg ++ bs)) by (apply rfix_of_rel; [lia|exact Hbytes]).
  assert (Hwv : view m v1 = sdefault m).
  { transitivity (view m (VM pres vs ovs)); [|exact Hvm]. unfold v1, m. rewrite !view_tab. f_equal.
    rewrite (view_fields_upd fs i 0 pres pres vs num (KRep max) t (VR 0 data') Hf) by (intros q num' t' _ _; reflexivity). apply upd_same.
    rewrite (view_fields_nth_fwd fs i 0 pres vs num (KRep max) t _ Hf Hvi). reflexivity. }
  pose proof (view_tab fs os) as Hvt. fold m in Hvt.
  destruct (refused_slot fs os pres (upd i (VR 0 data') vs) ovs i num max st cap 0 data' x' tg bs e rest Hd Hf) with (S := rfix) (R := rfix_ops (zlen (tg ++ bs)))
    (rel := rfix_rel (zlen (tg ++ bs))) (s := rfix_of (tg ++ bs)) (fuel := fuel) as (s2 & E2 & _); auto.
  { apply nth_error_upd_same. eapply nth_error_lt; exact Hvi. }
  { unfold data'. rewrite zlen_upd. lia. } { unfold data'. rewrite zlen_upd. lia. }
  { unfold data'. cbn [Z.to_nat]. apply nth_error_upd_same. eapply nth_error_lt; exact Hd0. }
  { apply rfix_ok. }
  destruct (refused_slot fs os pres vs ovs i num max st cap 0 data (default_value t) tg bs e rest Hd Hf Hvi) with (S := rfix) (R := rfix_ops (zlen (tg ++ bs)))
    (rel := rfix_rel (zlen (tg ++ bs))) (s := rfix_of (tg ++ bs)) (fuel := fuel) as (s3 & E3 & _); auto; [lia|lia|apply rfix_ok|].
  exists v1. do 2 eexists. split; [exact Erun|]. split; [exact Hwv|]. split; [|split; [|split]].
  - cbn [run_op m]. unfold v1. rewrite E2. cbn [bind]. reflexivity.
  - rewrite Hvt. cbn [fields_of]. rewrite upd_upd.
    rewrite (view_fields_nth_fwd fs i 0 pres _ num (KRep max) t (VR (0 + 1) data') Hf) by (apply nth_error_upd_same; eapply nth_error_lt; exact Hvi).
    cbn [view_field Z.to_nat]. unfold data'. change (Z.to_nat (0 + 1)) with 1%nat. destruct data as [|y data0]; [discriminate Hd0|]. cbn [upd firstn map]. now rewrite Hvx'.
  - cbn [run_op m]. rewrite E3. cbn [bind]. reflexivity.
  - rewrite Hvt. cbn [fields_of].
    rewrite (view_fields_nth_fwd fs i 0 pres _ num (KRep max) t (VR (0 + 1) data) Hf) by (apply nth_error_upd_same; eapply nth_error_lt; exact Hvi).
    cbn [view_field]. change (Z.to_nat (0 + 1)) with 1%nat. destruct data as [|y data0]; [discriminate Hd0|]. cbn [nth_error] in Hd0. injection Hd0 as ->. reflexivity.
Qed.

(* ------------------------------------------------------------------------------------------- *)
(** ** Records cut short, and the records that do leave the list alone *)

Lemma cut_string_grows : forall fs os v pre vs ovs i num max st cap old tg l n p, let t := EMsg fs os in
  desc_ok t -> wt t v -> clean t v -> mdec fs os (view t v) pre (SvM vs ovs) ->
  nth_error fs i = Some (num, KRep max, EBytes st cap) -> nth_error vs i = Some (SvR old) -> zlen old < max ->
  varint32 tg (num * 8 + wt_code LENDEL) -> varint32 l n -> zlen p < n <= cap ->
  decodes t v (pre ++ tg ++ l ++ p) EndOfBuffer (SvM (upd i (SvR (old ++ [SvB p])) vs) ovs) [].
Proof.
  intros fs os v pre vs ovs i num max st cap old tg l n p t Hd Hw Hc Hp Hf Hx Hlt Htg Hl Hn.
  eapply (decodes_after fs os v true); eauto. apply mread_stop; [|discriminate].
  eapply rread_field; eauto. eapply fread_rep_bytes_cut; eauto.
Qed.

Lemma failed_message_grows : forall fs os v pre vs ovs i num max fs' os' old tg l p e new rest tail, let t := EMsg fs os in
  desc_ok t -> wt t v -> clean t v -> mdec fs os (view t v) pre (SvM vs ovs) ->
  nth_error fs i = Some (num, KRep max, EMsg fs' os') -> nth_error vs i = Some (SvR old) -> zlen old < max ->
  varint32 tg (num * 8 + wt_code LENDEL) -> varint32 l (zlen p) ->
  mread true true fs' os' (sdefault (EMsg fs' os')) p e new rest -> e <> NoErrors ->
  decodes t v (pre ++ tg ++ l ++ p ++ tail) e (SvM (upd i (SvR (old ++ [new])) vs) ovs) (rest ++ tail).
Proof.
  intros fs os v pre vs ovs i num max fs' os' old tg l p e new rest tail t Hd Hw Hc Hp Hf Hx Hlt Htg Hl Hm He.
  eapply (decodes_after fs os v true); eauto. apply mread_stop; [|exact He].
  eapply rread_field; eauto. eapply fread_rep_msg; eauto; [now left|]. rewrite Z.eqb_refl. exact Hm.
Qed.

Lemma full_list_kept : forall fs os v pre vs ovs i num max ty old tg bs, let t := EMsg fs os in
  desc_ok t -> wt t v -> clean t v -> mdec fs os (view t v) pre (SvM vs ovs) ->
  nth_error fs i = Some (num, KRep max, ty) -> is_packed ty = false -> nth_error vs i = Some (SvR old) -> zlen old = max ->
  varint32 tg (num * 8 + wt_code LENDEL) ->
  decodes t v (pre ++ tg ++ bs) ArrayFull (SvM vs ovs) bs.
Proof.
  intros fs os v pre vs ovs i num max ty old tg bs t Hd Hw Hc Hp Hf Hpk Hx Hlt Htg.
  eapply (decodes_after fs os v true); eauto. apply mread_stop; [|discriminate].
  rewrite <- (upd_same _ _ _ Hx) at 2.
  eapply rread_field; eauto. eapply fread_rep_full; eauto.
Qed.

Lemma bad_message_length_kept : forall fs os v pre vs ovs i num max fs' os' old tg bs e rest, let t := EMsg fs os in
  desc_ok t -> wt t v -> clean t v -> mdec fs os (view t v) pre (SvM vs ovs) ->
  nth_error fs i = Some (num, KRep max, EMsg fs' os') -> nth_error vs i = Some (SvR old) -> zlen old < max ->
  varint32 tg (num * 8 + wt_code LENDEL) -> varint_fails 5 bs e rest ->
  decodes t v (pre ++ tg ++ bs) e (SvM vs ovs) rest.
Proof.
  intros fs os v pre vs ovs i num max fs' os' old tg bs e rest t Hd Hw Hc Hp Hf Hx Hlt Htg Hl.
  eapply (decodes_after fs os v true); eauto. apply mread_stop; [|inversion Hl; discriminate].
  rewrite <- (upd_same _ _ _ Hx) at 2.
  eapply rread_field; eauto. eapply fread_rep_msg_length; eauto.
Qed.

Lemma wrong_wiretype_kept : forall fs os v pre vs ovs i num max ty old tg w bs, let t := EMsg fs os in
  desc_ok t -> wt t v -> clean t v -> mdec fs os (view t v) pre (SvM vs ovs) ->
  nth_error fs i = Some (num, KRep max, ty) -> nth_error vs i = Some (SvR old) ->
  varint32 tg (num * 8 + wt_code w) -> w <> LENDEL ->
  decodes t v (pre ++ tg ++ bs) InvalidWiretype (SvM vs ovs) bs.
Proof.
  intros fs os v pre vs ovs i num max ty old tg w bs t Hd Hw Hc Hp Hf Hx Htg Hn.
  eapply (decodes_after fs os v true); eauto. apply mread_stop; [|discriminate].
  rewrite <- (upd_same _ _ _ Hx) at 2.
  eapply rread_field; eauto. eapply fread_rep_wiretype; eauto.
Qed.

(** A packed record that ends with an error: the list has grown by the values read before it, each of which is
    completely there. *)
Lemma packed_refused : forall fs os v pre vs ovs i num max sc old tg l n q zs r e rest tail, let t := EMsg fs os in
  desc_ok t -> wt t v -> clean t v -> mdec fs os (view t v) pre (SvM vs ovs) ->
  nth_error fs i = Some (num, KRep max, EScalar sc) -> nth_error vs i = Some (SvR old) ->
  varint32 tg (num * 8 + wt_code LENDEL) -> varint32 l n -> spans n (q ++ r) tail -> packed_reads sc q zs ->
  (zlen old + zlen zs <= max /\ scalar_fails sc r e rest /\ e <> EndOfBuffer)
  \/ (zlen old + zlen zs = max /\ e = ArrayFull /\ exists c z, r = c ++ rest /\ scalar_reads sc c z) ->
  decodes t v (pre ++ tg ++ l ++ (q ++ r) ++ tail) e (SvM (upd i (SvR (old ++ map SvZ zs)) vs) ovs) (rest ++ tail).
Proof.
  intros fs os v pre vs ovs i num max sc old tg l n q zs r e rest tail t Hd Hw Hc Hp Hf Hx Htg Hl Hs Hq [(Hm & Hr & He)|(Hm & -> & c & z & -> & Hz)].
  - eapply (decodes_after fs os v true); eauto. apply mread_stop; [|exact (scalar_fails_err _ _ _ _ Hr)].
    eapply rread_field; eauto. eapply fread_packed_fails; eauto.
  - eapply (decodes_after fs os v true); eauto. apply mread_stop; [|discriminate].
    eapply rread_field; eauto. eapply fread_packed_full; eauto.
Qed.
