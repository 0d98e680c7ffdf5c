(** Proofs for C95: what was read needs no more room than the bytes it was read from. *)
From Verif Require Import Base Buffers Wire Schema Fields Message Api Spec SpecApi SpecRead BitLemmas Struct Contracts SerProofs SerProps ReadProofs WireProps Tables BufferProofs RoundTrip DecodeProofs DecodeProps ReadAny MalformedProps SizeProofs.
From Coq Require Import Lia ZifyBool ZifyNat ZifyN.
Ltac Zify.zify_post_hook ::= Z.div_mod_to_equations.

(* ------------------------------------------------------------------------------------------- *)
(** ** The canonical varint is a shortest one *)

Lemma varint_value_nonneg bs : 0 <= varint_value bs.
Proof. induction bs as [|b bs IH]; cbn [varint_value]; lia. Qed.

Lemma groups_shortest : forall bs k, bs <> [] -> zlen (varint_groups k (varint_value bs)) <= zlen bs.
Proof.
  induction bs as [|b bs IH]; intros k Hn; [contradiction|]. pose proof (varint_value_nonneg bs) as Hv. pose proof (zlen_nonneg bs) as Hz.
  destruct k as [|k]; cbn [varint_groups]; [rewrite zlen_nil, zlen_cons; lia|]. cbn [varint_value].
  destruct (Z.ltb_spec (b mod 128 + 128 * varint_value bs) 128) as [H|H]; rewrite !zlen_cons, ?zlen_nil; [lia|].
  replace ((b mod 128 + 128 * varint_value bs) / 128) with (varint_value bs) by lia.
  destruct bs as [|b' bs]; [cbn [varint_value] in H; lia|]. specialize (IH k ltac:(discriminate)). lia.
Qed.

Lemma varint_wf_nonempty k bs : varint_wf k bs -> bs <> [].
Proof. intros (i & l & -> & _). destruct i; discriminate. Qed.

Lemma varint_shortest k bs n : varint_wf k bs -> 0 <= n <= varint_value bs -> zlen (varint n) <= zlen bs.
Proof.
  intros H Hn. apply varint_wf_nonempty in H. pose proof (varint_mono n (varint_value bs) Hn). pose proof (groups_shortest bs 10 H).
  unfold varint in *. lia.
Qed.

Lemma mod_le_value w bs : 0 < w -> 0 <= varint_value bs mod 2 ^ w <= varint_value bs.
Proof.
  intros Hw. pose proof (varint_value_nonneg bs). pose proof (Z.mod_pos_bound (varint_value bs) (2 ^ w) ltac:(lia)).
  pose proof (Z.mod_le (varint_value bs) (2 ^ w) ltac:(lia) ltac:(lia)). lia.
Qed.

Lemma varint32_shortest bs n m : varint32 bs n -> 0 <= m <= n -> zlen (varint m) <= zlen bs.
Proof.
  intros [H <-] Hm. pose proof (mod_le_value 32 bs ltac:(lia)). eapply varint_shortest; eauto. lia.
Qed.

Lemma groups_pos k n : (0 < k)%nat -> 1 <= zlen (varint_groups k n).
Proof.
  destruct k as [|k]; intros H; [lia|]. cbn [varint_groups]. destruct (n <? 128); rewrite zlen_cons; pose proof (zlen_nonneg (varint_groups k (n / 128))); rewrite ?zlen_nil; lia.
Qed.

Lemma groups_succ k n : zlen (varint_groups k n) <= zlen (varint_groups (S k) n).
Proof.
  revert n. induction k as [|k IH]; intros n; [apply (zlen_nonneg (varint_groups 1 n))|].
  specialize (IH (n / 128)). cbn [varint_groups] in *. destruct (n <? 128); rewrite ?zlen_cons in *; lia.
Qed.

Lemma groups_shift k n : 0 <= n -> zlen (varint_groups k (128 * n)) <= 1 + zlen (varint_groups k n).
Proof.
  intros Hn. destruct k as [|k]; [cbn; lia|]. pose proof (groups_succ k n) as G. remember (zlen (varint_groups (S k) n)) as L eqn:EL. assert (HL : 0 <= L) by (subst L; apply zlen_nonneg). cbn [varint_groups]. destruct (Z.ltb_spec (128 * n) 128) as [H|H].
  - rewrite zlen_cons, zlen_nil. lia.
  - rewrite zlen_cons. replace (128 * n / 128) with n by lia. lia.
Qed.

Lemma varint_pos n : 1 <= zlen (varint n).
Proof. apply groups_pos. lia. Qed.

Lemma varint_sum a b : 0 <= a -> 0 <= b -> zlen (varint (a + b)) <= zlen (varint a) + zlen (varint b).
Proof.
  intros Ha Hb. pose proof (varint_pos a). pose proof (varint_pos b).
  assert (G : forall m, 0 <= m -> a + b <= 128 * m -> zlen (varint (a + b)) <= 1 + zlen (varint m)).
  { intros m Hm Hle. pose proof (varint_mono (a + b) (128 * m) ltac:(lia)). pose proof (groups_shift 10 m Hm). unfold varint in *. lia. }
  destruct (Z.le_ge_cases a b); [specialize (G b)|specialize (G a)]; lia.
Qed.

(* ------------------------------------------------------------------------------------------- *)
(** ** Scalars *)

Lemma to_signed_mod w n : 0 < w -> to_signed w n mod 2 ^ w = n mod 2 ^ w.
Proof.
  intros Hw. unfold to_signed. assert (0 < 2 ^ w) by lia. destruct (_ <? _).
  - now rewrite Z.mod_mod by lia.
  - replace (n mod 2 ^ w - 2 ^ w) with (n mod 2 ^ w + (-1) * 2 ^ w) by lia. rewrite Z.mod_add, Z.mod_mod by lia. reflexivity.
Qed.

Lemma zigzag_unzigzag m : 0 <= m -> zigzag (unzigzag m) = m.
Proof.
  intros H. unfold zigzag, unzigzag. destruct (Z.eqb_spec (m mod 2) 0) as [E|E].
  - destruct (Z.leb_spec 0 (m / 2)); lia.
  - destruct (Z.leb_spec 0 (- ((m + 1) / 2))); lia.
Qed.

Lemma scalar_room sc c z : scalar_reads sc c z -> zlen (scalar_enc sc z) <= zlen c.
Proof.
  intros [c' z' H|b -> Hb]; [|reflexivity].
  assert (P32 := mod_le_value 32 c' ltac:(lia)). assert (P64 := mod_le_value 64 c' ltac:(lia)).
  destruct sc; cbn [scalar_dec scalar_enc] in *;
    try (destruct H as (Hl & _ & _); rewrite le_len; unfold zlen; lia);
    destruct H as [H ->]; rewrite ?to_signed_mod, ?zigzag_unzigzag by lia;
    try (eapply varint_shortest; [exact H|]; rewrite ?Z.mod_mod by lia; assumption).
  apply varint_wf_nonempty in H. destruct c' as [|b c']; [contradiction|]. assert (1 <= zlen (b :: c')) by (rewrite zlen_cons; pose proof (zlen_nonneg c'); lia).
  destruct (_ =? 0); [change (zlen (varint 0)) with 1|change (zlen (varint 1)) with 1]; lia.
Qed.

Lemma packed_room sc q zs : packed_reads sc q zs -> zlen (flat_map (enc (EScalar sc)) (map SvZ zs)) <= zlen q.
Proof.
  induction 1 as [|c z q zs H _ IH]; cbn [map flat_map enc]; [reflexivity|].
  rewrite !zlen_app. apply scalar_room in H. cbn [enc] in IH. lia.
Qed.

(* ------------------------------------------------------------------------------------------- *)
(** ** Replacing one field or oneof *)

Lemma enc_fields_upd fs : forall vs i num k t x x', nth_error fs i = Some (num, k, t) -> nth_error vs i = Some x ->
  zlen (enc_fields (etab fs) (upd i x' vs)) + zlen (enc_field num k t (enc t) x)
  = zlen (enc_fields (etab fs) vs) + zlen (enc_field num k t (enc t) x').
Proof.
  induction fs as [|[[num0 k0] t0] fs IH]; intros vs i num k t x x' Hf Hv; [destruct i; discriminate|].
  destruct vs as [|v vs]; [destruct i; discriminate|]. destruct i as [|i]; cbn [nth_error] in *; unfold etab; cbn [map enc_fields upd]; rewrite !zlen_app.
  - injection Hf as -> -> ->. injection Hv as ->. lia.
  - specialize (IH vs i num k t x x' Hf Hv). unfold etab in IH. lia.
Qed.

Definition members (ms : list (Z * ety)) := map (fun '(num, t) => (num, (t, enc t))) ms.

Lemma enc_oneofs_upd os : forall ovs j ms o o', nth_error os j = Some ms -> nth_error ovs j = Some o ->
  zlen (enc_oneofs (eotab os) (upd j o' ovs)) + zlen (enc_oneof (members ms) o)
  = zlen (enc_oneofs (eotab os) ovs) + zlen (enc_oneof (members ms) o').
Proof.
  induction os as [|ms0 os IH]; intros ovs j ms o o' Hf Hv; [destruct j; discriminate|].
  destruct ovs as [|v ovs]; [destruct j; discriminate|]. destruct j as [|j]; cbn [nth_error] in *; unfold eotab; cbn [map enc_oneofs upd]; rewrite !zlen_app.
  - injection Hf as ->. injection Hv as ->. unfold members. lia.
  - specialize (IH ovs j ms o o' Hf Hv). unfold eotab in IH. lia.
Qed.

(* ------------------------------------------------------------------------------------------- *)
(** ** The induction *)

Definition allowance (num : Z) (t : ety) (old : sval) : Z :=
  match t with
  | EMsg _ _ => match enc t old with [] => 0 | p => zlen (enc_elem num t p) end
  | _ => 0
  end.

Definition elem_room (t : ety) (old : sval) (bs : list Z) (e : err) (new : sval) (rest : list Z) : Prop :=
  e = NoErrors -> forall num, zlen (enc_elem num t (enc t new)) + zlen rest
    <= zlen (tag num (elem_wiretype t)) + zlen bs + allowance num t old.
Definition msg_room (fs : list fdesc) (os : list odesc) (old : sval) (bs : list Z) (e : err) (new : sval) (rest : list Z) : Prop :=
  e = NoErrors -> zlen (enc (EMsg fs os) new) + zlen rest <= zlen (enc (EMsg fs os) old) + zlen bs.
Definition field_room (k : fkind) (t : ety) (w : wiretype) (x : sval) (bs : list Z) (e : err) (x' : sval) (rest : list Z) : Prop :=
  e = NoErrors -> forall num, zlen (enc_field num k t (enc t) x') + zlen rest
    <= zlen (tag num w) + zlen bs + zlen (enc_field num k t (enc t) x).

Lemma elem_len num t p : zlen (enc_elem num t p) = zlen (tag num (elem_wiretype t)) + (if is_packed t then 0 else zlen (varint (zlen p))) + zlen p.
Proof. destruct t; cbn [enc_elem elem_wiretype is_packed]; unfold delimited; rewrite ?zlen_app; lia. Qed.

(** A nested message. *)
Lemma nested_room num fs os old l n p new rest tail : varint32 l n -> spans n p tail ->
  zlen (enc (EMsg fs os) new) + zlen rest <= zlen (enc (EMsg fs os) old) + zlen p ->
  zlen (enc_elem num (EMsg fs os) (enc (EMsg fs os) new)) + zlen (rest ++ tail)
  <= zlen (tag num LENDEL) + zlen (l ++ p ++ tail) + allowance num (EMsg fs os) old.
Proof.
  intros Hl Hs H. assert (Hn : zlen p <= n) by (destruct Hs as [->|[? _]]; lia).
  pose proof (zlen_nonneg p). pose proof (zlen_nonneg rest). pose proof (zlen_nonneg (enc (EMsg fs os) new)). pose proof (zlen_nonneg (enc (EMsg fs os) old)).
  rewrite elem_len. cbn [is_packed elem_wiretype]. rewrite !zlen_app. pose proof (varint32_shortest l n (zlen p) Hl ltac:(lia)) as Hp.
  remember (zlen (enc (EMsg fs os) new)) as N eqn:EN. unfold allowance.
  destruct (enc (EMsg fs os) old) as [|b o] eqn:E.
  - rewrite zlen_nil in *. pose proof (varint_mono N (zlen p) ltac:(lia)). lia.
  - rewrite elem_len. cbn [is_packed elem_wiretype]. remember (zlen (b :: o)) as O eqn:EO.
    pose proof (varint_mono N (O + zlen p) ltac:(lia)). pose proof (varint_sum O (zlen p) ltac:(lia) ltac:(lia)).
    pose proof (zlen_nonneg (tag num LENDEL)). lia.
Qed.

Lemma sdefault_allowance num t : allowance num t (sdefault t) = 0.
Proof. destruct (enc_default t) as [E|(sc & ->)]; [|reflexivity]. unfold allowance. rewrite E. now destruct t. Qed.

Lemma allowance_field_plain num t x : allowance num t x <= zlen (enc_field num KPlain t (enc t) x).
Proof.
  unfold allowance. destruct t as [sc|st max|fs os]; try apply zlen_nonneg. cbn [enc_field].
  destruct (enc (EMsg fs os) x); [apply zlen_nonneg|lia].
Qed.

Lemma allowance_elem num t x : allowance num t x <= zlen (enc_elem num t (enc t x)).
Proof.
  unfold allowance. destruct t as [sc|st max|fs os]; try apply zlen_nonneg.
  destruct (enc (EMsg fs os) x); [apply zlen_nonneg|]. lia.
Qed.

Lemma plain_field_le num t x : zlen (enc_field num KPlain t (enc t) x) <= zlen (enc_elem num t (enc t x)).
Proof.
  pose proof (zlen_nonneg (enc_elem num t (enc t x))) as P. destruct t as [sc|st max|fs os]; cbn [enc_field].
  - destruct x; try (destruct (is_zero sc z)); cbn [enc] in *; rewrite ?zlen_nil; try lia.
  - destruct (enc (EBytes st max) x); [exact P|lia].
  - destruct (enc (EMsg fs os) x); [exact P|lia].
Qed.

Lemma suffix_len (bs rest : list Z) : (exists u, bs = u ++ rest) -> zlen rest <= zlen bs.
Proof. intros (u & ->). rewrite zlen_app. pose proof (zlen_nonneg u). lia. Qed.

Ltac lens := repeat match goal with |- context[zlen ?l] => lazymatch goal with H : 0 <= zlen l |- _ => fail | _ => pose proof (zlen_nonneg l) end end.

Lemma read_room d : forall bd,
  (forall t old bs e new rest, eread d bd t old bs e new rest -> elem_room t old bs e new rest)
  /\ (forall fs os old bs e new rest, mread d bd fs os old bs e new rest -> msg_room fs os old bs e new rest)
  /\ (forall fs os old bs e new rest, rread d bd fs os old bs e new rest -> msg_room fs os old bs e new rest)
  /\ (forall k t w x bs e x' rest, fread d bd k t w x bs e x' rest -> field_room k t w x bs e x' rest).
Proof.
  apply read_ind; unfold elem_room, msg_room, field_room; intros; try discriminate; try (subst e);
    try (match goal with H : varint_fails _ _ NoErrors _ |- _ => apply varint_fails_err in H; contradiction
         | H : scalar_fails _ _ NoErrors _ |- _ => apply scalar_fails_err in H; contradiction
         | H : skip_fails _ _ NoErrors _ |- _ => apply skip_fails_err in H; contradiction end);
    try contradiction.
  - (* scalar *) rewrite elem_len. cbn [enc is_packed allowance elem_wiretype]. apply scalar_room in s. rewrite zlen_app. lia.
  - (* bytes *) rewrite elem_len. cbn [enc is_packed allowance elem_wiretype]. rewrite !zlen_app.
    pose proof (varint32_shortest l (zlen p) (zlen p) v ltac:(pose proof (zlen_nonneg p); lia)). lia.
  - (* message *) eapply nested_room; eauto.
  - (* end *) rewrite zlen_nil. pose proof (zlen_nonneg bs). lia.
  - (* next *) specialize (H eq_refl). specialize (H0 eq_refl). lia.
  - (* field *) specialize (H eq_refl num). rewrite !enc_tab, !zlen_app.
    pose proof (enc_fields_upd fs vs i num k t x x' ltac:(eassumption) ltac:(eassumption)) as E.
    assert (T : zlen (tag num w) <= zlen tg).
    { eapply varint32_shortest; [eassumption|]. split; [|lia]. match goal with H : varint32 tg _ |- _ => destruct H as [_ <-] end. apply Z.mod_pos_bound; lia. }
    lia.
  - (* oneof *) specialize (H eq_refl num). rewrite !enc_tab, !zlen_app. cbn [member_result].
    pose proof (enc_oneofs_upd os ovs j ms o (num, SvSome x') ltac:(eassumption) ltac:(eassumption)) as E.
    assert (T : zlen (tag num (elem_wiretype t)) <= zlen tg).
    { eapply varint32_shortest; [eassumption|]. split; [|lia]. match goal with H : varint32 tg _ |- _ => destruct H as [_ <-] end. apply Z.mod_pos_bound; lia. }
    assert (L : lookup (members ms) num = Some (t, enc t)).
    { unfold members. rewrite lookup_enc. match goal with H : lookup ms num = Some t |- _ => now rewrite H end. }
    assert (N : enc_oneof (members ms) (num, SvSome x') = enc_elem num t (enc t x')).
    { unfold enc_oneof. cbn [fst snd]. now rewrite L. }
    assert (A : allowance num t (member_start num t o) <= zlen (enc_oneof (members ms) o)).
    { unfold member_start. destruct (Z.eqb_spec num (fst o)) as [En|En].
      - unfold enc_oneof. rewrite <- En, L. destruct (snd o); cbn [opt_start]; try (rewrite sdefault_allowance; apply zlen_nonneg).
        apply allowance_elem.
      - rewrite sdefault_allowance. apply zlen_nonneg. }
    rewrite N in E. lia.
  - (* unknown *) rewrite !zlen_app. lens. lia.
  - rewrite !zlen_app, zlen_nil. lens. lia.
  - rewrite !zlen_app. lens. lia.
  - (* plain *) specialize (H eq_refl num). pose proof (plain_field_le num t x'). pose proof (allowance_field_plain num t x). lia.
  - (* optional *) specialize (H eq_refl num). cbn [enc_field].
    destruct x; cbn [opt_start] in H; try (rewrite sdefault_allowance in H; lens; lia).
    pose proof (allowance_elem num t x). lia.
  - (* recursive *) lens. lia.
  - (* repeated message *) specialize (H eq_refl). rewrite (proj2 (Z.eqb_eq 0 0) eq_refl) in * || idtac.
    cbn [enc_field]. rewrite flat_map_app, zlen_app. cbn [flat_map]. rewrite app_nil_r.
    pose proof (nested_room num fs os (sdefault (EMsg fs os)) l n p new rest tail v s H) as G.
    rewrite sdefault_allowance in G. lia.
  - (* repeated bytes *) cbn [enc_field]. rewrite flat_map_app, zlen_app. cbn [flat_map]. rewrite app_nil_r, elem_len. cbn [enc is_packed elem_wiretype].
    rewrite !zlen_app. pose proof (varint32_shortest l (zlen p) (zlen p) v ltac:(pose proof (zlen_nonneg p); lia)). lia.
  - (* packed, no length *) apply varint_fails_suffix, suffix_len in v. lens. lia.
  - (* packed *) cbn [enc_field]. rewrite !zlen_app. pose proof (packed_room _ _ _ p) as Q. pose proof (zlen_nonneg (flat_map (enc (EScalar sc)) (map SvZ zs))).
    assert (Hn : zlen q <= n). { pose proof (zlen_nonneg r). destruct s as [->|[? _]]; rewrite zlen_app in *; lia. }
    pose proof (zlen_nonneg q). pose proof (varint32_shortest l n (zlen q) v ltac:(lia)) as Hl.
    destruct old as [|a old].
    + cbn [app]. destruct (map SvZ zs) as [|b zl] eqn:Ez; [lens; rewrite zlen_nil; lia|]. rewrite <- Ez in *. unfold delimited. rewrite !zlen_app.
      pose proof (varint_mono (zlen (flat_map (enc (EScalar sc)) (map SvZ zs))) (zlen q) ltac:(lia)). lens. lia.
    + change ((a :: old) ++ map SvZ zs) with (a :: (old ++ map SvZ zs)). cbv iota. change (a :: (old ++ map SvZ zs)) with ((a :: old) ++ map SvZ zs).
      unfold delimited. rewrite flat_map_app, !zlen_app. remember (zlen (flat_map (enc (EScalar sc)) (a :: old))) as A.
      assert (0 <= A) by (subst A; apply zlen_nonneg). remember (zlen (flat_map (enc (EScalar sc)) (map SvZ zs))) as B.
      pose proof (varint_mono (A + B) (A + zlen q) ltac:(lia)). pose proof (varint_sum A (zlen q) ltac:(lia) ltac:(lia)).
      lens. lia.
Qed.

(* ------------------------------------------------------------------------------------------- *)
(** ** The objects *)

Lemma room_parts fs os v v' d bd bs rest : let t := EMsg fs os in
  desc_ok t -> wt t v -> wt t v' -> zlen (enc t (view t v)) + zlen bs < 2 ^ 32 ->
  mread d bd fs os (view t v) bs NoErrors (view t v') rest ->
  exists n n', serialized_size (serialize t v) = Done n /\ serialized_size (serialize t v') = Done n' /\ n' <= n + zlen bs
  /\ forall cap b c room, wfix_rel cap b c (Some room) -> n + zlen bs < room ->
     exists b', serialize t v' wfix (wfix_ops cap) b = Done (NoErrors, b').
Proof.
  intros t Hd Hw Hw' Hz Hm. pose proof (proj1 (proj2 (read_room d bd)) _ _ _ _ _ _ _ Hm eq_refl) as H. fold t in H.
  pose proof (zlen_nonneg rest). pose proof (zlen_nonneg bs).
  exists (zlen (enc t (view t v))), (zlen (enc t (view t v'))).
  split; [apply serialized_size_enc; auto; lia|]. assert (Hs : serialized_size (serialize t v') = Done (zlen (enc t (view t v')))) by (apply serialized_size_enc; auto; lia).
  split; [exact Hs|]. split; [lia|]. intros cap b c room Hr Hroom.
  destruct (exact_space_partial fs os v' cap b c room Hw' Hd Hr _ Hs) as (e & b' & E & HE & _); [fold t; lia|].
  exists b'. rewrite (HE ltac:(lia)) in E. exact E.
Qed.

Lemma received_room fs os v bs : let t := EMsg fs os in
  desc_ok t -> wt t v -> clean t v -> Forall is_byte bs -> zlen (enc t (view t v)) + zlen bs < 2 ^ 32 ->
  forall S (R : rops S) rel, reader_ok R rel -> reader_bounded R rel \/ ~ mover fs os (view t v) bs ->
  forall s, rel s bs -> forall fuel, (length bs < fuel)%nat ->
  forall v' s', deserialize fuel t S R v s = Done (NoErrors, v', s') ->
  exists n n', serialized_size (serialize t v) = Done n /\ serialized_size (serialize t v') = Done n' /\ n' <= n + zlen bs
  /\ forall cap b c room, wfix_rel cap b c (Some room) -> n + zlen bs < room ->
     exists b', serialize t v' wfix (wfix_ops cap) b = Done (NoErrors, b').
Proof.
  intros t Hd Hw Hc Hb Hz S R rel ok Hm s Hr fuel Hf v' s' E.
  assert (M : exists bd rest, wt t v' /\ mread false bd fs os (view t v) bs NoErrors (view t v') rest).
  { destruct Hm as [Hm|Hm].
    - destruct (decode_any_bounded fs os v bs Hd Hw Hc Hb S R rel ok Hm s Hr fuel Hf) as (e & v1 & s1 & rest & E1 & _ & Hw' & _ & M).
      fold t in E1. rewrite E1 in E. injection E as -> -> ->. eauto.
    - destruct (decode_any fs os v bs Hd Hw Hc Hb Hm S R rel ok s Hr fuel Hf) as (e & v1 & s1 & rest & E1 & _ & Hw' & _ & M).
      fold t in E1. rewrite E1 in E. injection E as -> -> ->. eauto. }
  destruct M as (bd & rest & Hw' & M). eapply room_parts; eauto.
Qed.

Lemma received_room_mdec fs os v bs new : let t := EMsg fs os in
  desc_ok t -> wt t v -> clean t v -> mdec fs os (view t v) bs new -> zlen (enc t (view t v)) + zlen bs < 2 ^ 32 ->
  forall S (R : rops S) rel, reader_ok R rel -> forall s, rel s bs -> forall fuel, (length bs < fuel)%nat ->
  exists v' s', deserialize fuel t S R v s = Done (NoErrors, v', s') /\ view t v' = new /\
  exists n n', serialized_size (serialize t v) = Done n /\ serialized_size (serialize t v') = Done n' /\ n' <= n + zlen bs
  /\ forall cap b c room, wfix_rel cap b c (Some room) -> n + zlen bs < room ->
     exists b', serialize t v' wfix (wfix_ops cap) b = Done (NoErrors, b').
Proof.
  intros t Hd Hw Hc Hm Hz S R rel ok s Hr fuel Hf.
  destruct (decode_merge fs os v bs new Hd Hw Hc Hm S R rel ok s Hr fuel Hf) as (v' & s' & E & _ & Hv & Hw' & _).
  exists v', s'. split; [exact E|]. split; [exact Hv|]. pose proof (proj1 (proj2 (dec_reads true)) _ _ _ _ _ Hm true) as M.
  fold t in Hv. rewrite <- Hv in M. eapply room_parts; eauto.
Qed.

(** Two bytes fields; an unknown record at the end whose length makes the read index of the fixed buffer go back into
    the value of the first field. *)
Definition two_values : ety := EMsg [(1, KPlain, EBytes false 8); (2, KPlain, EBytes false 8)] [].
Definition read_twice : list Z := [10; 2; 18; 6; 26; 248; 255; 255; 255; 15].

Lemma room_refuted : ~ (forall fs os bs, let t := EMsg fs os in
  desc_ok t -> Forall is_byte bs -> zlen bs < 2 ^ 31 -> forall fuel, (length bs < fuel)%nat ->
  forall v' s', deserialize fuel t rfix (rfix_ops (zlen bs)) (default_value t) (rfix_of bs) = Done (NoErrors, v', s') ->
  forall n', serialized_size (serialize t v') = Done n' -> n' <= zlen bs).
Proof.
  intros H. specialize (H [(1, KPlain, EBytes false 8); (2, KPlain, EBytes false 8)] [] read_twice).
  cbv zeta in H. fold two_values in H.
  assert (Hd : desc_ok two_values).
  { cbn. unfold capacity_ok. repeat split; try lia. repeat constructor; cbn; intuition lia. }
  assert (Hb : Forall is_byte read_twice) by (repeat constructor; unfold is_byte; lia).
  specialize (H Hd Hb ltac:(vm_compute; reflexivity) 20%nat ltac:(cbn; lia)).
  specialize (H (VM [] [VB 2 [18; 6; 0; 0; 0; 0; 0; 0]; VB 6 [26; 248; 255; 255; 255; 15; 0; 0]] []) {| rf_data := read_twice; rf_w := 10; rf_r := 10 |}).
  specialize (H ltac:(vm_compute; reflexivity) 12 ltac:(vm_compute; reflexivity)). apply H. reflexivity.
Qed.

(** An object fresh from its constructor or clear(). *)
Lemma received_room_fresh fs os v bs : let t := EMsg fs os in
  desc_ok t -> fresh t v -> Forall is_byte bs -> zlen bs < 2 ^ 32 ->
  forall S (R : rops S) rel, reader_ok R rel -> reader_bounded R rel \/ ~ mover fs os (sdefault t) bs ->
  forall s, rel s bs -> forall fuel, (length bs < fuel)%nat ->
  forall v' s', deserialize fuel t S R v s = Done (NoErrors, v', s') ->
  exists n', serialized_size (serialize t v') = Done n' /\ n' <= zlen bs
  /\ forall cap b c room, wfix_rel cap b c (Some room) -> zlen bs < room ->
     exists b', serialize t v' wfix (wfix_ops cap) b = Done (NoErrors, b').
Proof.
  intros t Hd Hf Hb Hz S R rel ok Hm s Hr fuel Hfu v' s' E.
  destruct (fresh_good t v Hd Hf) as (Hw & Hc & Hv).
  assert (E0 : enc t (view t v) = []). { rewrite Hv. destruct (enc_default t) as [H|(sc & H)]; [exact H|discriminate]. }
  rewrite <- Hv in Hm.
  assert (Hz' : zlen (enc t (view t v)) + zlen bs < 2 ^ 32) by (rewrite E0, zlen_nil; lia).
  destruct (received_room fs os v bs Hd Hw Hc Hb Hz' S R rel ok Hm s Hr fuel Hfu v' s' E) as (n & n' & E1 & E2 & Hn & H).
  exists n'. assert (n = 0).
  { fold t in E1. rewrite (serialized_size_enc t v Hw Hd) in E1 by (rewrite E0, zlen_nil; lia). rewrite E0, zlen_nil in E1. congruence. }
  subst n. split; [exact E2|]. split; [lia|]. intros cap b c room Hx Hy. eapply H; eauto; lia.
Qed.
