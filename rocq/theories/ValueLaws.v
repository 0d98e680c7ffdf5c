(** * ValueLaws: what happens to negative zeros, C strings, strings and integers in every position. *)
From Verif Require Import Base Buffers Wire Schema Fields Message Api Spec SpecApi Contracts BitLemmas
  BufferProofs Struct SerProofs Tables DecodeProofs RoundTrip DecodeProps SerProps ApiProps SpecRead SpecMalformed MalformedProps.
From Coq Require Import ZifyBool ZifyNat ZifyN.
Ltac Zify.zify_post_hook ::= Z.div_mod_to_equations.

(* ------------------------------------------------------------------------------------------- *)
(** ** C21 *)

Lemma norm_id_conv t : forall v, wt t v -> norm t (view t v) = view t v -> no_neg_zero t (view t v).
Proof.
  induction t as [sc|st max|fs os Hf Ho] using ety_ind'; intros v Hw Hn; [exact I|exact I|].
  destruct v as [| | | |pres xs ovs]; try contradiction. rewrite view_tab in *. rewrite norm_tab in Hn.
  cbn [wt] in Hw. destruct Hw as (_ & _ & Hw1 & Hw2). injection Hn as Hn1 Hn2. cbn [no_neg_zero]. split.
  - clear Hn2 Hw2 Ho ovs. revert xs Hw1 Hn1. generalize 0 as i.
    induction Hf as [|[[num k] t] fs Ht Hf IH]; intros i xs Hw Hn; destruct xs as [|x xs]; cbn [all2] in Hw; try contradiction; [exact I|].
    destruct Hw as [Hwx Hw]. cbn [vtab ntab map view_fields norm_fields all2] in *.
    injection Hn as Hnx Hn. split; [|eapply IH; eauto]. cbn [snd] in Ht.
    destruct k as [| |max|]; cbn [view_field norm_field no_neg_zero_field wt_field] in *.
    + destruct t as [sc|st max|fs' os'].
      * destruct x as [z| | | |]; try contradiction. cbn [view norm] in *. intros Hz. rewrite Hz in Hnx. congruence.
      * destruct x; try contradiction. exact I.
      * specialize (Ht x Hwx). destruct x; try contradiction. apply Ht. exact Hnx.
    + destruct (present pres i); [|exact I]. injection Hnx as Hnx. auto.
    + destruct x as [| | |len data|]; try contradiction. destruct Hwx as (_ & _ & Hwd). apply all_Forall in Hwd.
      apply (Forall_firstn _ (Z.to_nat len)) in Hwd. apply all_Forall. injection Hnx as Hnx.
      induction (firstn (Z.to_nat len) data) as [|y l IHl]; [constructor|]. cbn [map] in *. inversion Hwd; subst. injection Hnx as H1' H2'.
      constructor; auto.
    + exact I.
  - clear Hn1 Hw1 Hf xs. revert ovs Hw2 Hn2.
    induction os as [|ms os IH]; intros ovs Hw Hn; destruct ovs as [|o ovs]; cbn [all2] in Hw; try contradiction; [exact I|].
    destruct Hw as [Hwo Hw]. inversion Ho; subst.
    cbn [votab notab map view_oneofs norm_oneofs all2] in *. injection Hn as Hno Hn.
    split; [|apply IH; auto]. clear IH Hn. unfold wt_oneof, view_oneof, norm_oneof, no_neg_zero_oneof in *.
    rewrite (lookup_map wt) in Hwo. rewrite (lookup_map view) in Hno |- *.
    destruct (lookup ms (fst o)) as [t|] eqn:El; cbn [option_map fst snd] in *.
    + rewrite (lookup_map no_neg_zero), El. cbn [option_map]. rewrite (lookup_map norm), El in Hno. cbn [option_map] in Hno.
      apply lookup_In in El. eapply Forall_forall in H1; [|exact El]. cbn [snd] in H1. injection Hno as Hno. auto.
    + rewrite Hwo in El. rewrite (lookup_map no_neg_zero), El. exact I.
Qed.

Lemma neg_zero_lost fs os v v0 : let t := EMsg fs os in
  desc_ok t -> wt t v -> zlen (enc t (view t v)) < 2 ^ 32 -> ~ no_neg_zero t (view t v) ->
  v0 = default_value t \/ (exists w, wt t w /\ clear t w = Done v0) ->
  forall cap b c n b', wfix_rel cap b c (Some n) ->
  serialize t v _ (wfix_ops cap) b = Done (NoErrors, b') ->
  exists bytes, wfix_content b' = wfix_content b ++ bytes /\
  forall S (R : rops S) rel, reader_ok R rel -> forall s, rel s bytes ->
  forall fuel, (length bytes < fuel)%nat ->
  exists v' s', deserialize fuel t S R v0 s = Done (NoErrors, v', s') /\ view t v' <> view t v.
Proof.
  intros t Hd Hw Hz Hneg Hf cap b c n b' Hr E.
  destruct (round_trip fs os v v0 Hd Hw Hz Hf cap b c n b' Hr E) as (bytes & Ec & H).
  exists bytes. split; [exact Ec|]. intros S R rel ok s Hs fuel Hfu.
  destruct (H S R rel ok s Hs fuel Hfu) as (v' & s' & E' & Hv & _). exists v', s'. split; [exact E'|].
  intros Heq. apply Hneg. apply norm_id_conv; [exact Hw|]. fold t in Hv. congruence.
Qed.

(* ------------------------------------------------------------------------------------------- *)
(** ** C31 *)

Lemma read_cstr_nonzero str rest : ~ In 0 str ->
  read_cstr (str ++ rest) = let* r := read_cstr rest in Done (str ++ r).
Proof.
  induction str as [|c str IH]; intros H; cbn [app read_cstr]; [destruct (read_cstr rest); reflexivity|].
  destruct (Z.eqb_spec c 0); [exfalso; apply H; left; congruence|]. rewrite IH by (intros Hi; apply H; right; exact Hi).
  destruct (read_cstr rest); reflexivity.
Qed.

Lemma cstr_exactly max v bs : wt (EBytes true max) v -> view (EBytes true max) v = SvB bs -> ~ In 0 bs ->
  match v with
  | VB _ data => (string_c_str v = Done bs <-> nth_error data (length bs) = Some 0)
  | _ => False
  end.
Proof.
  intros Hw Hv Hn. destruct v as [| |len data| |]; try contradiction. destruct Hw as (Hl & Hz & Hb).
  cbn [view string_c_str] in *. injection Hv as Hv.
  assert (Hlen : length bs = Z.to_nat len) by (rewrite <- Hv, firstn_length; unfold zlen in Hz; lia).
  rewrite Hlen. rewrite <- (firstn_skipn (Z.to_nat len) data) at 1. rewrite Hv, read_cstr_nonzero by exact Hn.
  assert (Hne : nth_error data (Z.to_nat len) = nth_error (skipn (Z.to_nat len) data) 0).
  { rewrite <- (firstn_skipn (Z.to_nat len) data) at 1. rewrite nth_error_app2 by (rewrite firstn_length; lia).
    f_equal. rewrite firstn_length. unfold zlen in Hz. lia. }
  rewrite Hne. destruct (skipn (Z.to_nat len) data) as [|x rest]; cbn [read_cstr nth_error bind].
  - split; discriminate.
  - destruct (Z.eqb_spec x 0) as [->|Hx]; cbn [bind].
    + rewrite app_nil_r. split; reflexivity.
    + split; [|congruence]. destruct (read_cstr rest); cbn [bind]; try discriminate. intros H. injection H as H.
      apply (f_equal (@length Z)) in H. rewrite app_length in H. cbn in H. lia.
Qed.

Lemma cstr_full max v bs : wt (EBytes true max) v -> view (EBytes true max) v = SvB bs -> ~ In 0 bs -> zlen bs = max ->
  string_c_str v = UB.
Proof.
  intros Hw Hv Hn Hf. destruct v as [| |len data| |]; try contradiction. destruct Hw as (Hl & Hz & Hb).
  cbn [view string_c_str] in *. injection Hv as Hv.
  assert (Hd : data = bs).
  { rewrite <- Hv. rewrite firstn_all2; [reflexivity|]. rewrite <- Hv in Hf. unfold zlen in *. rewrite firstn_length in Hf. lia. }
  rewrite Hd, <- (app_nil_r bs), read_cstr_nonzero by exact Hn. reflexivity.
Qed.

Lemma bytes_set_data max cur data src len : zlen data = max -> 0 <= len <= zlen src -> len <= max ->
  bytes_set (VB cur data) src len = Done (NoErrors, VB len (firstn (Z.to_nat len) src ++ skipn (Z.to_nat len) data)).
Proof.
  intros Hz Hl Hm. unfold bytes_set. destruct (Z.leb_spec len (zlen data)); [|lia].
  rewrite memcpy_ok by lia. cbn [bind Z.to_nat firstn app]. now rewrite Z.add_0_l.
Qed.

Lemma cstr_shorter max v old src len fuel : let t := EBytes true max in
  capacity_ok max -> wt t v -> view t v = SvB old -> ~ In 0 old ->
  Forall is_byte src -> ~ In 0 src -> 0 <= len <= zlen src -> len < zlen old ->
  exists v', run_op fuel (OpBytesSet src len) (OElem t) v = Done (NoErrors, v')
    /\ view t v' = SvB (firstn (Z.to_nat len) src)
    /\ (string_c_str v' = UB
        \/ exists more, string_c_str v' = Done (firstn (Z.to_nat len) src ++ skipn (Z.to_nat len) old ++ more)).
Proof.
  intros t Hc Hw Hv Ho Hs Hs0 Hl Hlt. destruct v as [| |cur data| |]; try contradiction. destruct Hw as (Hcur & Hz & Hb).
  cbn [view t] in Hv. injection Hv as Hv.
  assert (Hlo : zlen old = cur) by (rewrite <- Hv, zlen_firstn; lia).
  cbn [run_op t]. rewrite (bytes_set_data max) by lia. eexists. split; [reflexivity|].
  assert (Hfl : length (firstn (Z.to_nat len) src) = Z.to_nat len) by (rewrite firstn_length; unfold zlen in Hl; lia).
  split.
  - cbn [view t]. f_equal. rewrite firstn_app, Hfl, Nat.sub_diag, firstn_O, app_nil_r. apply firstn_all2. lia.
  - cbn [string_c_str]. assert (Hd : data = old ++ skipn (Z.to_nat cur) data) by (rewrite <- Hv; symmetry; apply firstn_skipn).
    rewrite Hd. rewrite skipn_app. replace (Z.to_nat len - length old)%nat with 0%nat by (unfold zlen in *; lia).
    cbn [skipn]. rewrite app_assoc, read_cstr_nonzero.
    + destruct (read_cstr (skipn (Z.to_nat cur) data)) as [r| |] eqn:Er; cbn [bind].
      * right. exists r. now rewrite app_assoc.
      * left. reflexivity.
      * exfalso. clear -Er. induction (skipn (Z.to_nat cur) data) as [|x l IH]; cbn [read_cstr] in Er; [discriminate|].
        destruct (x =? 0); [discriminate|]. destruct (read_cstr l); cbn [bind] in Er; try discriminate. auto.
    + intros Hi. apply in_app_or in Hi. destruct Hi as [Hi|Hi].
      * apply Hs0. rewrite <- (firstn_skipn (Z.to_nat len) src). apply in_or_app. auto.
      * apply Ho. rewrite <- (firstn_skipn (Z.to_nat len) old). apply in_or_app. auto.
Qed.

Lemma nth_zrepeat k n : (k < Z.to_nat n)%nat -> nth_error (zrepeat 0 n) k = Some 0.
Proof.
  unfold zrepeat. generalize (Z.to_nat n). revert k. intros k m. revert k. induction m as [|m IH]; intros k Hk; [lia|].
  destruct k; [reflexivity|]. cbn. apply IH. lia.
Qed.

Lemma cstr_first max v src len fuel : let t := EBytes true max in
  capacity_ok max -> v = construct (OElem t) \/ (exists w, wt t w /\ clear t w = Done v) ->
  Forall is_byte src -> ~ In 0 (firstn (Z.to_nat len) src) -> 0 <= len <= zlen src -> len < max ->
  exists v', run_op fuel (OpBytesSet src len) (OElem t) v = Done (NoErrors, v')
    /\ view t v' = SvB (firstn (Z.to_nat len) src) /\ string_c_str v' = Done (firstn (Z.to_nat len) src).
Proof.
  intros t Hc Hf Hs Hn Hl Hm. unfold capacity_ok in Hc.
  assert (Hv : v = VB 0 (zrepeat 0 max)).
  { destruct Hf as [->|(w & Hw & E)]; [reflexivity|]. destruct w as [| |cur data| |]; try contradiction.
    destruct Hw as (_ & Hz & _). cbn [clear t bytes_clear] in E. injection E as <-. now rewrite Hz. }
  subst v. cbn [run_op t]. rewrite (bytes_set_data max) by (rewrite ?zlen_zrepeat; lia). eexists. split; [reflexivity|].
  assert (Hfl : length (firstn (Z.to_nat len) src) = Z.to_nat len) by (rewrite firstn_length; unfold zlen in Hl; lia).
  split.
  - cbn [view t]. f_equal. rewrite firstn_app, Hfl, Nat.sub_diag, firstn_O, app_nil_r. apply firstn_all2. lia.
  - cbn [string_c_str]. assert (E : exists r, skipn (Z.to_nat len) (zrepeat 0 max) = 0 :: r).
    { unfold zrepeat. assert (Hk : (Z.to_nat len < Z.to_nat max)%nat) by lia. revert Hk. generalize (Z.to_nat len), (Z.to_nat max).
      intros a. induction a as [|a IH]; intros m Hk; (destruct m as [|m]; [lia|]); cbn [repeat skipn]; [eauto|]. apply IH. lia. }
    destruct E as (r & ->). apply read_cstr_prefix. exact Hn.
Qed.

(* ------------------------------------------------------------------------------------------- *)
(** ** C33: members of oneofs and elements of repeated fields *)

Lemma string_exact_oneof : forall fs os v pre vs ovs j ms num st max o tg l p post new, let t := EMsg fs os in
  desc_ok t -> wt t v -> clean t v -> mdec fs os (view t v) pre (SvM vs ovs) ->
  nth_error os j = Some ms -> lookup ms num = Some (EBytes st max) -> nth_error ovs j = Some o ->
  varint32 tg (num * 8 + wt_code LENDEL) -> varint32 l (zlen p) -> zlen p <= max ->
  mdec fs os (SvM vs (upd j (num, SvSome (SvB p)) ovs)) post new ->
  decodes t v (pre ++ tg ++ l ++ p ++ post) NoErrors new [].
Proof.
  intros fs os v pre vs ovs j ms num st max o tg l p post new t Hd Hw Hc Hp Hms Hlk Ho Htg Hl Hn Hpost.
  eapply (decodes_after fs os v true); eauto. eapply mread_next; [|apply (proj1 (proj2 (dec_reads true))); exact Hpost].
  change (num, SvSome (SvB p)) with (member_result NoErrors num (SvB p)). eapply rread_oneof; eauto. now apply eread_bytes.
Qed.

Lemma string_refused_oneof : forall fs os v pre vs ovs j ms num st max o tg l n p, let t := EMsg fs os in
  desc_ok t -> wt t v -> clean t v -> mdec fs os (view t v) pre (SvM vs ovs) ->
  nth_error os j = Some ms -> lookup ms num = Some (EBytes st max) -> nth_error ovs j = Some o ->
  varint32 tg (num * 8 + wt_code LENDEL) -> varint32 l n ->
  (max < n -> decodes t v (pre ++ tg ++ l ++ p) ArrayFull (SvM vs (upd j (0, SvNone) ovs)) p)
  /\ (zlen p < n <= max -> decodes t v (pre ++ tg ++ l ++ p) EndOfBuffer (SvM vs (upd j (0, SvNone) ovs)) []).
Proof.
  intros fs os v pre vs ovs j ms num st max o tg l n p t Hd Hw Hc Hp Hms Hlk Ho Htg Hl. split; intros Hn.
  - eapply oneof_malformed; eauto; [|discriminate]. eapply eread_too_long; eauto.
  - eapply oneof_malformed; eauto; [|discriminate]. eapply eread_cut; eauto.
Qed.

Lemma string_exact_rep : forall fs os v pre vs ovs i num cnt st max old tg l p post new, let t := EMsg fs os in
  desc_ok t -> wt t v -> clean t v -> mdec fs os (view t v) pre (SvM vs ovs) ->
  nth_error fs i = Some (num, KRep cnt, EBytes st max) -> nth_error vs i = Some (SvR old) -> zlen old < cnt ->
  varint32 tg (num * 8 + wt_code LENDEL) -> varint32 l (zlen p) -> zlen p <= max ->
  mdec fs os (SvM (upd i (SvR (old ++ [SvB p])) vs) ovs) post new ->
  decodes t v (pre ++ tg ++ l ++ p ++ post) NoErrors new [].
Proof.
  intros fs os v pre vs ovs i num cnt st max old tg l p post new t Hd Hw Hc Hp Hf Hx Hlt Htg Hl Hn Hpost.
  eapply (decodes_after fs os v true); eauto. eapply mread_next; [|apply (proj1 (proj2 (dec_reads true))); exact Hpost].
  eapply rread_field; eauto. now apply fread_rep_bytes.
Qed.

(* ------------------------------------------------------------------------------------------- *)
(** ** C51: members of oneofs and packed elements *)

Lemma long_refused_oneof : forall fs os v pre vs ovs j ms num sc o tg c rest, let t := EMsg fs os in
  desc_ok t -> wt t v -> clean t v -> mdec fs os (view t v) pre (SvM vs ovs) ->
  nth_error os j = Some ms -> lookup ms num = Some (EScalar sc) -> nth_error ovs j = Some o ->
  sc = UInt32 \/ sc = Enumeration ->
  varint32 tg (num * 8 + wt_code VARINT) -> varint_wf 10 c -> (5 < length c)%nat ->
  exists rest', decodes t v (pre ++ tg ++ c ++ rest) OverlongVarint (SvM vs (upd j (0, SvNone) ovs)) rest'.
Proof.
  intros fs os v pre vs ovs j ms num sc o tg c rest t Hd Hw Hc Hp Hms Hlk Ho Hsc Htg Hwf Hlen.
  destruct (wf_over 5 c Hwf Hlen) as (a & b & -> & Ha & Hb).
  eexists. eapply oneof_malformed; eauto; [| |discriminate]. { destruct Hsc; subst sc; exact Htg. }
  rewrite <- app_assoc. apply eread_scalar_fails. apply scalar_fails_varint; [destruct Hsc; subst sc; reflexivity|destruct Hsc; subst sc; discriminate|].
  destruct Hsc; subst sc; now apply varint_overlong.
Qed.

Lemma long_refused_packed : forall fs os v pre vs ovs i num max sc old tg l q zs c r rest, let t := EMsg fs os in
  desc_ok t -> wt t v -> clean t v -> mdec fs os (view t v) pre (SvM vs ovs) ->
  nth_error fs i = Some (num, KRep max, EScalar sc) -> nth_error vs i = Some (SvR old) ->
  sc = UInt32 \/ sc = Enumeration ->
  varint32 tg (num * 8 + wt_code LENDEL) -> varint32 l (zlen (q ++ c ++ r)) ->
  packed_dec sc q zs -> zlen old + zlen zs <= max -> varint_wf 10 c -> (5 < length c)%nat ->
  exists rest', decodes t v (pre ++ tg ++ l ++ (q ++ c ++ r) ++ rest) OverlongVarint
    (SvM (upd i (SvR (old ++ map SvZ zs)) vs) ovs) rest'.
Proof.
  intros fs os v pre vs ovs i num max sc old tg l q zs c r rest t Hd Hw Hc Hp Hf Hx Hsc Htg Hl Hq Hm Hwf Hlen.
  destruct (wf_over 5 c Hwf Hlen) as (a & b & -> & Ha & Hb).
  assert (Hfail : scalar_fails sc (((a ++ b) ++ r)) OverlongVarint (b ++ r)).
  { rewrite <- app_assoc. apply scalar_fails_varint; [destruct Hsc; subst sc; reflexivity|destruct Hsc; subst sc; discriminate|].
    destruct Hsc; subst sc; now apply varint_overlong. }
  eexists. eapply packed_overlong; eauto.
Qed.

(* ------------------------------------------------------------------------------------------- *)
(** ** C53: int32 fields of any message *)

Lemma enc_fields_at fs : forall vs i num k t x, nth_error fs i = Some (num, k, t) -> nth_error vs i = Some x ->
  exists post, enc_fields (map (fun '(num, k, t) => (num, k, t, enc t)) fs) vs
    = enc_fields (map (fun '(num, k, t) => (num, k, t, enc t)) (firstn i fs)) (firstn i vs) ++ enc_field num k t (enc t) x ++ post.
Proof.
  induction fs as [|[[num0 k0] t0] fs IH]; intros vs i num k t x Hf Hv; [destruct i; discriminate|].
  destruct vs as [|v vs]; [destruct i; discriminate|]. destruct i as [|i]; cbn [nth_error firstn map enc_fields] in *.
  - injection Hf as -> -> ->. injection Hv as ->. eexists. reflexivity.
  - destruct (IH vs i num k t x Hf Hv) as (post & ->). exists post. now rewrite <- app_assoc.
Qed.

Lemma int32_anywhere fs os v vs ovs i num k z : let t := EMsg fs os in
  wt t v -> desc_ok t -> zlen (enc t (view t v)) < 2 ^ 32 -> view t v = SvM vs ovs ->
  nth_error fs i = Some (num, k, EScalar Int32) -> nth_error vs i = Some (stored k (SvZ z)) ->
  (k = KPlain /\ z <> 0) \/ k = KOpt -> - 2 ^ 31 <= z < 2 ^ 31 ->
  forall cap b c n, wfix_rel cap b c (Some n) -> forall b',
  serialize t v wfix (wfix_ops cap) b = Done (NoErrors, b') ->
  exists post, wfix_content b' = wfix_content b ++ enc (EMsg (firstn i fs) []) (SvM (firstn i vs) [])
    ++ tag num VARINT ++ varint (z mod 2 ^ 32) ++ post.
Proof.
  intros t Hw Hd Hlen Hv Hf Hx Hk Hz cap b c n Hr b' E.
  rewrite (serialize_is_enc fs os v Hw Hd Hlen cap b c n Hr b' E). fold t. rewrite Hv. cbn [enc t].
  destruct (enc_fields_at fs vs i num k _ _ Hf Hx) as (post & ->).
  exists (post ++ enc_oneofs (map (map (fun '(num, t) => (num, (t, enc t)))) os) ovs).
  assert (He : enc_field num k (EScalar Int32) (enc (EScalar Int32)) (stored k (SvZ z)) = tag num VARINT ++ varint (z mod 2 ^ 32)).
  { destruct Hk as [[-> Hz0]| ->]; cbn [enc_field stored enc enc_elem scalar_enc is_zero scalar_wiretype].
    - destruct (Z.eqb_spec z 0); [congruence|]. reflexivity.
    - reflexivity. }
  rewrite He. cbn [map enc_oneofs]. rewrite app_nil_r, <- !app_assoc. reflexivity.
Qed.

Lemma int32_negative_anywhere fs os v vs ovs i num k z : let t := EMsg fs os in
  wt t v -> desc_ok t -> zlen (enc t (view t v)) < 2 ^ 32 -> view t v = SvM vs ovs ->
  nth_error fs i = Some (num, k, EScalar Int32) -> nth_error vs i = Some (stored k (SvZ z)) ->
  k = KPlain \/ k = KOpt -> - 2 ^ 31 <= z < 0 ->
  forall cap b c n, wfix_rel cap b c (Some n) -> forall b',
  serialize t v wfix (wfix_ops cap) b = Done (NoErrors, b') ->
  (exists post, wfix_content b' = wfix_content b ++ enc (EMsg (firstn i fs) []) (SvM (firstn i vs) [])
     ++ tag num VARINT ++ varint (z + 2 ^ 32) ++ post)
  /\ zlen (varint (z + 2 ^ 32)) = 5 /\ zlen (varint (z + 2 ^ 64)) = 10.
Proof.
  intros t Hw Hd Hlen Hv Hf Hx Hk Hz cap b c n Hr b' E. split; [|split].
  - replace (z + 2 ^ 32) with (z mod 2 ^ 32) by lia. eapply int32_anywhere; eauto; [|lia].
    destruct Hk as [-> | ->]; [left; split; [reflexivity|lia]|right; reflexivity].
  - unfold varint, zlen. rewrite (varint_groups_len 10 5); lia.
  - unfold varint, zlen. rewrite (varint_groups_len 10 10); lia.
Qed.

Lemma int32_nonnegative_anywhere fs os v vs ovs i num k z : let t := EMsg fs os in
  wt t v -> desc_ok t -> zlen (enc t (view t v)) < 2 ^ 32 -> view t v = SvM vs ovs ->
  nth_error fs i = Some (num, k, EScalar Int32) -> nth_error vs i = Some (stored k (SvZ z)) ->
  (k = KPlain /\ z <> 0) \/ k = KOpt -> 0 <= z < 2 ^ 31 ->
  forall cap b c n, wfix_rel cap b c (Some n) -> forall b',
  serialize t v wfix (wfix_ops cap) b = Done (NoErrors, b') ->
  exists post, wfix_content b' = wfix_content b ++ enc (EMsg (firstn i fs) []) (SvM (firstn i vs) [])
    ++ tag num VARINT ++ varint z ++ post.
Proof.
  intros t Hw Hd Hlen Hv Hf Hx Hk Hz cap b c n Hr b' E.
  destruct (int32_anywhere fs os v vs ovs i num k z Hw Hd Hlen Hv Hf Hx Hk ltac:(lia) cap b c n Hr b' E) as (post & H).
  rewrite Z.mod_small in H by lia. eauto.
Qed.
