(** * SameProofs: the serialized bytes say which message it was (C78). *)
From Verif Require Import Base Buffers Wire Schema Fields Message Api Spec SpecApi Contracts BitLemmas BufferProofs Struct SerProofs SerProps Tables
  DecodeProofs RoundTrip DecodeProps LoadProps VersionProofs ApiProps Samples ApiSamples.
From Coq Require Import ZifyBool ZifyNat ZifyN.
Ltac Zify.zify_post_hook ::= Z.div_mod_to_equations.

Lemma is_zero_0 sc : is_zero sc 0 = true.
Proof. destruct sc; reflexivity. Qed.

Lemma enc_norm_field num k t v : (forall x, enc t (norm t x) = enc t x) -> enc_field num k t (enc t) (norm_field k t (norm t) v) = enc_field num k t (enc t) v.
Proof.
  intros IH. destruct k as [| |mx|]; cbn [norm_field enc_field].
  - destruct v as [z|bs|l| |x|vs ovs]; try (destruct t; cbn [norm enc_field]; rewrite ?IH; reflexivity).
    + destruct t as [sc|st mx|fs os]; [|reflexivity|reflexivity]. destruct (is_zero sc z) eqn:E; [|now rewrite E].
      now rewrite is_zero_0.
    + pose proof (IH (SvM vs ovs)) as IH'. destruct t as [sc|st mx|fs os]; cbn [norm] in *; [reflexivity|reflexivity|]. now rewrite IH'.
  - destruct v; try reflexivity. now rewrite IH.
  - destruct v as [z|bs|l| |x|vs ovs]; try reflexivity.
    assert (E1 : flat_map (enc t) (map (norm t) l) = flat_map (enc t) l) by (rewrite !flat_map_concat_map, map_map; f_equal; apply map_ext; exact IH).
    assert (E2 : flat_map (fun x => enc_elem num t (enc t x)) (map (norm t) l) = flat_map (fun x => enc_elem num t (enc t x)) l).
    { rewrite !flat_map_concat_map, map_map. f_equal. apply map_ext. intros x. now rewrite IH. }
    destruct t; [|exact E2|exact E2]. rewrite E1. destruct l; reflexivity.
  - reflexivity.
Qed.

Lemma enc_norm t : forall v, enc t (norm t v) = enc t v.
Proof.
  induction t as [sc|st mx|fs os IHf IHo] using ety_ind'; intros v; [reflexivity|reflexivity|]. destruct v as [z|bs|l| |x|vs ovs]; try reflexivity.
  cbn [norm enc]. f_equal.
  - revert vs. induction IHf as [|[[num k] t] fs H IHf IH]; intros vs; [reflexivity|]. cbn [map norm_fields]. destruct vs as [|v vs]; [reflexivity|].
    cbn [enc_fields snd] in *. rewrite IH. f_equal. now apply enc_norm_field.
  - revert ovs. induction IHo as [|ms os H IHo IH]; intros ovs; [reflexivity|]. cbn [map norm_oneofs]. destruct ovs as [|o ovs]; [reflexivity|].
    cbn [enc_oneofs]. rewrite IH. f_equal. destruct o as [id x]. unfold norm_oneof, enc_oneof. cbn [fst snd].
    clear - H. induction H as [|[num t] ms H Hms IH]; [reflexivity|]. cbn [map lookup]. destruct (num =? id) eqn:E.
    + destruct x; try (cbn [fst snd]; cbn [map lookup]; rewrite E; reflexivity). cbn [fst snd]. cbn [snd] in H. now rewrite E, H.
    + destruct (lookup (map (fun '(num0, t0) => (num0, norm t0)) ms) id); [destruct x|]; cbn [fst snd] in *; rewrite ?E; exact IH.
Qed.

(** Both directions. *)
Lemma same_bytes fs os v w : let t := EMsg fs os in
  desc_ok t -> wt t v -> wt t w -> zlen (enc t (view t v)) < 2 ^ 32 -> zlen (enc t (view t w)) < 2 ^ 32 ->
  forall cap b c n b' cap2 b2 c2 n2 b2' bytes bytes2, wfix_rel cap b c (Some n) -> wfix_rel cap2 b2 c2 (Some n2) ->
  serialize t v _ (wfix_ops cap) b = Done (NoErrors, b') -> wfix_content b' = wfix_content b ++ bytes ->
  serialize t w _ (wfix_ops cap2) b2 = Done (NoErrors, b2') -> wfix_content b2' = wfix_content b2 ++ bytes2 ->
  (bytes = bytes2 <-> norm t (view t v) = norm t (view t w)).
Proof.
  intros t Hd Hv Hw Hzv Hzw cap b c n b' cap2 b2 c2 n2 b2' bytes bytes2 Hb Hb2 Ev Ebv Ew Ebw.
  pose proof (serialize_is_enc fs os v Hv Hd Hzv cap b c n Hb b' Ev) as E1. rewrite Ebv in E1. apply app_inv_head in E1.
  pose proof (serialize_is_enc fs os w Hw Hd Hzw cap2 b2 c2 n2 Hb2 b2' Ew) as E2. rewrite Ebw in E2. apply app_inv_head in E2.
  fold t in E1, E2. split.
  - intros E. destruct (round_trip fs os v (default_value t) Hd Hv Hzv (or_introl eq_refl) cap b c n b' Hb Ev) as (x & Ex & H).
    rewrite Ebv in Ex. apply app_inv_head in Ex. subst x.
    destruct (round_trip fs os w (default_value t) Hd Hw Hzw (or_introl eq_refl) cap2 b2 c2 n2 b2' Hb2 Ew) as (x & Ex & H2).
    rewrite Ebw in Ex. apply app_inv_head in Ex. subst x. rewrite <- E in H2.
    assert (Hby : Forall is_byte bytes) by (rewrite E1; now apply VersionProofs.enc_bytes).
    assert (Hz : zlen bytes < 2 ^ 32) by congruence.
    destruct (H _ _ _ (rfix_ok (zlen bytes)) (rfix_of bytes) (rfix_of_rel _ Hz Hby) (S (length bytes)) (Nat.lt_succ_diag_r _)) as (v' & s' & D & V & _).
    destruct (H2 _ _ _ (rfix_ok (zlen bytes)) (rfix_of bytes) (rfix_of_rel _ Hz Hby) (S (length bytes)) (Nat.lt_succ_diag_r _)) as (v2' & s2' & D2 & V2 & _).
    rewrite D in D2. injection D2 as -> ->. fold t in V, V2. congruence.
  - intros E. rewrite E1, E2, <- enc_norm, E. apply enc_norm.
Qed.

Lemma same_bytes_histories fs os ops ops2 fuel fuel2 v w : let t := EMsg fs os in
  desc_ok t -> Forall (op_ok (OElem t)) ops -> Forall (op_ok (OElem t)) ops2 ->
  run_ops fuel ops (OElem t) (construct (OElem t)) = Done v -> run_ops fuel2 ops2 (OElem t) (construct (OElem t)) = Done w ->
  zlen (enc t (view t v)) < 2 ^ 32 -> zlen (enc t (view t w)) < 2 ^ 32 ->
  forall cap b c n b' cap2 b2 c2 n2 b2' bytes bytes2, wfix_rel cap b c (Some n) -> wfix_rel cap2 b2 c2 (Some n2) ->
  serialize t v _ (wfix_ops cap) b = Done (NoErrors, b') -> wfix_content b' = wfix_content b ++ bytes ->
  serialize t w _ (wfix_ops cap2) b2 = Done (NoErrors, b2') -> wfix_content b2' = wfix_content b2 ++ bytes2 ->
  (bytes = bytes2 <-> norm t (view t v) = norm t (view t w)).
Proof.
  intros t Hd Ho Ho2 Ev Ew. pose proof (reachable_valid (OElem t) ops fuel Hd Ho) as Hv. rewrite Ev in Hv.
  pose proof (reachable_valid (OElem t) ops2 fuel2 Hd Ho2) as Hw. rewrite Ew in Hw. now apply same_bytes.
Qed.

(** Another history after which the getters show what they show after [sample_ops]. *)
Definition sample_ops2 : list op :=
  [OpField 4 OpTouch; OpField 0 (OpScalarSet 150); OpField 1 (OpBytesSet [1; 2; 3] 3); OpField 1 (OpBytesSet [65; 66] 2);
   OpField 3 (OpRepAt 1 (OpField 1 (OpScalarSet (-1)))); OpField 3 (OpRepAt 2 (OpField 0 (OpScalarSet 7))); OpOneof 0 7 (OpScalarSet 1)].
Lemma sample_ops2_ok : Forall (op_ok (OElem Outer)) sample_ops2.
Proof.
  assert (B : forall l, forallb (fun b => (0 <=? b) && (b <? 256)) l = true -> Forall is_byte l).
  { intros l H. apply Forall_forall. intros b Hb. rewrite forallb_forall in H. specialize (H b Hb). unfold is_byte. lia. }
  unfold sample_ops2. apply Forall_forall. intros o Ho. cbn [In] in Ho.
  repeat (destruct Ho as [<-|Ho]; [cbn [op_ok nth_error outer_fields outer_oneofs Outer Inner inner_fields oty_of lookup Z.eqb Pos.eqb];
    unfold legal_index; cbn [scalar_range wt];
    repeat split; try (apply B; reflexivity); try (vm_compute; congruence); try (left; cbn; tauto); try (right; reflexivity); try lia; try discriminate|]).
  contradiction.
Qed.
