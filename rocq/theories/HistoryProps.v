(** The statements about careful histories (C22, C35) and about what a shortened list leaves behind. *)
From Verif Require Import Base Buffers Wire Schema Fields Message Api Spec SpecApi SpecHistory Contracts BitLemmas
  ReadProofs ScalarProofs BufferProofs Struct SerProofs Tables DecodeProofs RoundTrip ClearProofs TidyProofs AssignProofs
  DecodeProps ApiProofs ApiProps AliasProofs ReadAny CleanProofs.
From Coq Require Import ZifyBool ZifyNat ZifyN.
Ltac Zify.zify_post_hook ::= Z.div_mod_to_equations.

Lemma careful_clean : forall t ops fuel v, let ty := OElem t in
  desc_ok t -> Forall (op_ok ty) ops -> careful fuel ty ops -> run_ops fuel ops ty (construct ty) = Done v ->
  wt t v /\ clean t v.
Proof.
  intros t ops fuel v ty Hd Hl Hc Hr. split.
  - apply (reached_ok fuel ty ops v Hd Hl Hr).
  - exact (history_clean ty ops fuel v Hd Hl Hc Hr).
Qed.

Lemma careful_decode : forall fs os ops fuel0 v bs new, let m := EMsg fs os in
  desc_ok m -> Forall (op_ok (OElem m)) ops -> careful fuel0 (OElem m) ops ->
  run_ops fuel0 ops (OElem m) (construct (OElem m)) = Done v -> mdec fs os (view m v) bs new ->
  forall S (R : rops S) rel, reader_ok R rel -> forall s, rel s bs -> forall fuel, (length bs < fuel)%nat ->
  exists v' s', deserialize fuel m S R v s = Done (NoErrors, v', s') /\ rel s' [] /\ view m v' = new.
Proof.
  intros fs os ops fuel0 v bs new m Hd Hl Hc Hr Hm S R rel ok s Hs fuel Hf.
  destruct (careful_clean m ops fuel0 v Hd Hl Hc Hr) as [Hw Hcl].
  destruct (decode_merge fs os v bs new Hd Hw Hcl Hm S R rel ok s Hs fuel Hf) as (v' & s' & E & H1 & H2 & _). eauto.
Qed.

Lemma no_copying_clean : forall t ops fuel v, let ty := OElem t in
  desc_ok t -> Forall (op_ok ty) ops -> Forall no_copying ops -> run_ops fuel ops ty (construct ty) = Done v ->
  wt t v /\ clean t v.
Proof. intros t ops fuel v ty Hd Hl Hn Hr. eapply careful_clean; eauto. now apply no_copying_careful. Qed.

(** A record with an empty payload appends the slot behind the list as it is. *)
Lemma decode_empty_element fs os pres vs ovs i num max fs' os' len data x tg : let m := EMsg fs os in
  desc_ok m -> nth_error fs i = Some (num, KRep max, EMsg fs' os') -> nth_error vs i = Some (VR len data) ->
  zlen data < 2 ^ 31 -> 0 <= len < zlen data -> nth_error data (Z.to_nat len) = Some x -> varint32 tg (num * 8 + 2) ->
  forall S (R : rops S) rel, reader_ok R rel -> forall s, rel s (tg ++ [0]) -> forall fuel, (1 < fuel)%nat ->
  exists s', deserialize fuel m S R (VM pres vs ovs) s = Done (NoErrors, VM pres (upd i (VR (len + 1) data) vs) ovs, s').
Proof.
  intros m Hd Hf Hv Hz Hl Hx Htg S R rel ok s Hs fuel Hfu. unfold m. cbn [deserialize].
  change (exists s', msg_loop fuel fuel (dtab fuel fs) (dotab fuel os) R (VM pres vs ovs) s = Done (NoErrors, VM pres (upd i (VR (len + 1) data) vs) ovs, s')).
  destruct (desc_field fs os i num _ _ Hd Hf) as (Hdt & Hnum & Hcap).
  destruct fuel as [|[|n]]; [lia|lia|]. set (fuel := Datatypes.S (Datatypes.S n)). unfold fuel at 2.
  destruct (DeserializeTag_wf ok tg [0] s num LENDEL Htg ltac:(lia) Hs) as (s1 & E1 & Hs1).
  cbn [msg_loop]. rewrite E1. cbn [bind].
  assert (Hw0 : varint_wf 5 [0]) by (exists [], 0; cbn; repeat split; auto; lia).
  destruct (DeserializeVarint_wf ok 32 [0] [] s1) as (s2 & E2 & Hs2); [now left|exact Hw0|exact Hs1|].
  change (varint_value [0] mod 2 ^ 32) with 0 in E2.
  pose proof (mk_section_rel R rel s2 [] [] ok Hs2) as Hsec. change (zlen (@nil Z)) with 0 in Hsec.
  destruct (DeserializeTag_nil (sec_ok R rel [] ok) _ Hsec) as (sec1 & E3 & Hsec1).
  assert (Einner : deserialize fuel (EMsg fs' os') _ (sec_ops R) x (mk_section R s2 0) = Done (NoErrors, x, sec1)).
  { cbn [deserialize]. unfold msg_deserialize. unfold fuel at 2. cbn [msg_loop]. rewrite E3. reflexivity. }
  assert (Edisp : msg_dispatch fuel (dtab fuel fs) (dotab fuel os) num LENDEL R (VM pres vs ovs) s1
    = Done (NoErrors, VM pres (upd i (VR (len + 1) data) vs) ovs, sec_parent sec1)).
  { unfold msg_dispatch. rewrite (desc_find_field fuel _ _ _ _ _ _ Hd Hf). rewrite (aget_nat _ _ _ Hv). cbn [bind field_deserialize rep_deserialize_check_type].
    unfold rep_deserialize_check_type. cbn [wt_eqb wt_code Z.eqb Pos.eqb is_packed]. unfold rep_deserialize_unpacked, rep_get. destruct (Z.ltb_spec len (zlen data)); [|lia].
    rewrite u32_small by lia. rewrite Z.min_l by lia. destruct (Z.leb_spec len len); [|lia].
    assert (Ea : aget data len = Done x). { destruct (aget_ok data len) as (y & -> & Ey); [lia|]. congruence. }
    rewrite Ea. cbn [bind]. rewrite E2. cbn [bind]. rewrite Einner. cbn [bind]. rewrite aset_ok by lia. cbn [bind].
    rewrite (upd_same _ _ _ Hx). rewrite aset_nat by (eapply nth_error_lt; exact Hv). reflexivity. }
  rewrite Edisp. cbn [bind is_ok].
  destruct Hsec1 as (Hp & _). cbn [app] in Hp.
  destruct (DeserializeTag_nil ok _ Hp) as (s3 & E4 & _). rewrite E4. cbn [bind]. eauto.
Qed.

(** Adding an element and shortening the list again leaves the element where the next record is decoded. *)
Lemma shortened_list_remembers : forall fs os i num max fs' os' x tg, let m := EMsg fs os in let t := EMsg fs' os' in
  desc_ok m -> nth_error fs i = Some (num, KRep max, t) -> wt t x -> varint32 tg (num * 8 + 2) -> Forall is_byte tg ->
  let ops := [OpField i (OpRepAdd x); OpField i (OpRepSetData [] 0)] in
  Forall (op_ok (OElem m)) ops
  /\ (forall fuel, (1 < fuel)%nat -> exists v1 v2 v3, run_ops fuel ops (OElem m) (construct (OElem m)) = Done v1
    /\ view m v1 = sdefault m
    /\ run_op fuel (OpDeserialize (tg ++ [0])) (OElem m) v1 = Done (NoErrors, v2)
    /\ nth_error (fields_of (view m v2)) i = Some (SvR [view t x])
    /\ run_op fuel (OpDeserialize (tg ++ [0])) (OElem m) (construct (OElem m)) = Done (NoErrors, v3)
    /\ nth_error (fields_of (view m v3)) i = Some (SvR [sdefault t])).
Proof.
  intros fs os i num max fs' os' x tg m t Hd Hf Hx Htg Hb ops.
  destruct (desc_field fs os i num _ _ Hd Hf) as (Hdt & Hnum & Hcap). unfold capacity_ok in Hcap.
  assert (Hops : Forall (op_ok (OElem m)) ops).
  { constructor; [|constructor; [|constructor]]; cbn [op_ok m]; rewrite Hf; cbn [op_ok oty_of]; [exact Hx|]. split; [constructor|]. unfold zlen. cbn. lia. }
  split; [exact Hops|]. intros fuel Hfu.
  destruct (default_ok m Hd) as (Hwm & Hcm & Hvm).
  assert (Hdef : exists pres vs ovs, construct (OElem m) = VM pres vs ovs /\ nth_error vs i = Some (VR 0 (zrepeat (default_value t) max))).
  { cbn [construct default_value m]. do 3 eexists. split; [reflexivity|].
    rewrite (map_nth_error _ _ _ Hf). reflexivity. }
  destruct Hdef as (pres & vs & ovs & Econ & Hvi). rewrite Econ. change (default_value m = VM pres vs ovs) in Econ. rewrite Econ in Hwm, Hcm, Hvm.
  destruct (assign_ok t Hdt (default_value t) x) as (x' & Ex' & Hwx' & Htx' & Hvx'); [apply asg_pre_intro; [now apply default_ok|now apply default_tidy]|exact Hx|].
  set (data := zrepeat (default_value t) max) in *. assert (Hzd : zlen data = max) by (apply zlen_zrepeat; lia).
  assert (Hd0 : nth_error data 0 = Some (default_value t)).
  { unfold data, zrepeat. replace (Z.to_nat max) with (S (Z.to_nat (max - 1))) by lia. reflexivity. }
  set (data' := upd 0 x' data).
  set (v1 := VM pres (upd i (VR 0 data') vs) ovs).
  assert (Erun : run_ops fuel ops (OElem m) (VM pres vs ovs) = Done v1).
  { unfold ops. cbn [run_ops run_op m]. rewrite Hf, (aget_nat _ _ _ Hvi). cbn [bind oty_of run_op rep_add].
    destruct (Z.ltb_spec 0 (zlen data)); [|lia].
    assert (Ea : aget data 0 = Done (default_value t)). { destruct (aget_ok data 0) as (y & -> & Ey); [lia|]. cbn [Z.to_nat] in Ey. congruence. }
    rewrite Ea. cbn [bind]. rewrite Ex'. cbn [bind]. rewrite aset_ok by lia. cbn [bind Z.to_nat]. fold data'.
    rewrite aset_nat by (eapply nth_error_lt; exact Hvi). cbn [bind].
    change (0 + 1) with 1. rewrite (aget_nat (upd i (VR 1 data') vs) i (VR 1 data')) by (apply nth_error_upd_same; eapply nth_error_lt; exact Hvi). cbn [bind rep_set_data].
    destruct (Z.leb_spec 0 (zlen data')); [|unfold data' in *; rewrite zlen_upd in *; lia]. cbn [Z.to_nat rep_set_data_loop bind].
    rewrite aset_nat by (rewrite length_upd; eapply nth_error_lt; exact Hvi). cbn [bind]. unfold v1. now rewrite upd_upd. }
  assert (Hbytes : Forall is_byte (tg ++ [0])) by (apply Forall_app; split; [exact Hb|constructor; [unfold is_byte; lia|constructor]]).
  assert (Hrel : rfix_rel (zlen (tg ++ [0])) (rfix_of (tg ++ [0])) (tg ++ [0])).
  { apply rfix_of_rel; [|exact Hbytes]. destruct Htg as ((init & last & -> & Hlen & _) & _). rewrite app_length in Hlen. rewrite !zlen_app. unfold zlen. cbn [length] in *. lia. }
  assert (Hwv : view m v1 = sdefault m).
  { transitivity (view m (VM pres vs ovs)); [|exact Hvm]. unfold v1, m. rewrite !view_tab. f_equal.
    rewrite (view_fields_upd fs i 0 pres pres vs num (KRep max) t (VR 0 data') Hf) by (intros q num' t' _ _; reflexivity). apply upd_same.
    rewrite (view_fields_nth_fwd fs i 0 pres vs num (KRep max) t _ Hf Hvi). reflexivity. }
  pose proof (view_tab fs os) as Hvt. fold m in Hvt.
  destruct (decode_empty_element fs os pres (upd i (VR 0 data') vs) ovs i num max fs' os' 0 data' x' tg Hd Hf) with (S := rfix) (R := rfix_ops (zlen (tg ++ [0])))
    (rel := rfix_rel (zlen (tg ++ [0]))) (s := rfix_of (tg ++ [0])) (fuel := fuel) as (s2 & E2); auto.
  { apply nth_error_upd_same. eapply nth_error_lt; exact Hvi. }
  { unfold data'. rewrite zlen_upd. lia. } { unfold data'. rewrite zlen_upd. lia. }
  { unfold data'. cbn [Z.to_nat]. apply nth_error_upd_same. eapply nth_error_lt; exact Hd0. }
  { apply rfix_ok. }
  destruct (decode_empty_element fs os pres vs ovs i num max fs' os' 0 data (default_value t) tg Hd Hf Hvi) with (S := rfix) (R := rfix_ops (zlen (tg ++ [0])))
    (rel := rfix_rel (zlen (tg ++ [0]))) (s := rfix_of (tg ++ [0])) (fuel := fuel) as (s3 & E3); auto; [lia|lia|apply rfix_ok|].
  exists v1. do 2 eexists. split; [exact Erun|]. split; [exact Hwv|]. split; [|split; [|split]].
  - cbn [run_op m]. unfold v1. rewrite E2. cbn [bind]. reflexivity.
  - rewrite Hvt. cbn [fields_of]. rewrite upd_upd.
    rewrite (view_fields_nth_fwd fs i 0 pres _ num (KRep max) t (VR (0 + 1) data') Hf) by (apply nth_error_upd_same; eapply nth_error_lt; exact Hvi).
    cbn [view_field Z.to_nat]. unfold data'. change (Z.to_nat (0 + 1)) with 1%nat. destruct data as [|y data0]; [discriminate Hd0|]. cbn [upd firstn map]. now rewrite Hvx'.
  - cbn [run_op m]. rewrite E3. cbn [bind]. reflexivity.
  - rewrite Hvt. cbn [fields_of].
    rewrite (view_fields_nth_fwd fs i 0 pres _ num (KRep max) t (VR (0 + 1) data) Hf) by (apply nth_error_upd_same; eapply nth_error_lt; exact Hvi).
    cbn [view_field]. change (Z.to_nat (0 + 1)) with 1%nat. destruct data as [|y data0]; [discriminate Hd0|]. cbn [nth_error] in Hd0. injection Hd0 as ->. cbn [firstn map].
    do 3 f_equal. now apply default_ok.
Qed.
