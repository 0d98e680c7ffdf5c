(** Malformed input at the level of whole messages. *)
From Verif Require Import Base Buffers Wire Schema Fields Message Spec Contracts BitLemmas
  ReadProofs ScalarProofs BufferProofs Struct SerProofs Tables DecodeProofs RoundTrip DecodeProps SpecRead ReadAny ReadTotal.
From Coq Require Import ZifyBool ZifyNat ZifyN.
Ltac Zify.zify_post_hook ::= Z.div_mod_to_equations.

Lemma deserialize_msg fuel fs os S (R : rops S) v s :
  deserialize fuel (EMsg fs os) S R v s = msg_loop fuel fuel (dtab fuel fs) (dotab fuel os) R v s.
Proof. reflexivity. Qed.

(** The decoder does what [mread] says. *)
Lemma decode_reads : forall fs os v d bd bs e new rest, let t := EMsg fs os in
  desc_ok t -> wt t v -> clean t v -> mread d bd fs os (view t v) bs e new rest ->
  forall S (R : rops S) rel, reader_ok R rel -> (bd = true -> reader_bounded R rel) ->
  forall s, rel s bs -> forall fuel, (length bs < fuel)%nat ->
  exists v' s', deserialize fuel t S R v s = Done (e, v', s') /\ rel s' rest
    /\ wt t v' /\ clean t v' /\ mread d bd fs os (view t v) bs e (view t v') rest
    /\ (d = true \/ e = NoErrors -> view t v' = new).
Proof.
  intros fs os v d bd bs e new rest t Hd Hw Hc Hf S R rel ok Hbd s Hr fuel Hfu.
  destruct (proj1 (proj2 (read_ok d bd)) _ _ _ _ _ _ _ Hf v S R rel ok Hbd s fuel fuel)
    as (v' & s' & E & Hr' & Hw' & Hc' & Hf' & Hv'); auto. { now split. }
  exists v', s'. rewrite <- deserialize_msg in E. auto 8.
Qed.

(** Every input. *)
Lemma decode_any : forall fs os v bs, let t := EMsg fs os in
  desc_ok t -> wt t v -> clean t v -> Forall is_byte bs -> ~ mover fs os (view t v) bs ->
  forall S (R : rops S) rel, reader_ok R rel -> forall s, rel s bs -> forall fuel, (length bs < fuel)%nat ->
  exists e v' s' rest, deserialize fuel t S R v s = Done (e, v', s') /\ rel s' rest
    /\ wt t v' /\ clean t v' /\ mread false false fs os (view t v) bs e (view t v') rest.
Proof.
  intros fs os v bs t Hd Hw Hc Hb Hno S R rel ok s Hr fuel Hfu.
  destruct (read_total false fs os v bs Hd Hw Hc Hb) as [(e & new & rest & H)|[_ H]]; [|contradiction].
  destruct (decode_reads fs os v false false bs e new rest Hd Hw Hc H S R rel ok ltac:(discriminate) s Hr fuel Hfu)
    as (v' & s' & E & Hr' & Hw' & Hc' & Hm' & _).
  exists e, v', s', rest. auto.
Qed.

(** With a buffer that knows where its bytes end there is no exception. *)
Lemma decode_any_bounded : forall fs os v bs, let t := EMsg fs os in
  desc_ok t -> wt t v -> clean t v -> Forall is_byte bs ->
  forall S (R : rops S) rel, reader_ok R rel -> reader_bounded R rel -> forall s, rel s bs ->
  forall fuel, (length bs < fuel)%nat ->
  exists e v' s' rest, deserialize fuel t S R v s = Done (e, v', s') /\ rel s' rest
    /\ wt t v' /\ clean t v' /\ mread false true fs os (view t v) bs e (view t v') rest.
Proof.
  intros fs os v bs t Hd Hw Hc Hb S R rel ok Hbd s Hr fuel Hfu.
  destruct (read_total true fs os v bs Hd Hw Hc Hb) as [(e & new & rest & H)|[H _]]; [|discriminate].
  destruct (decode_reads fs os v false true bs e new rest Hd Hw Hc H S R rel ok (fun _ => Hbd) s Hr fuel Hfu)
    as (v' & s' & E & Hr' & Hw' & Hc' & Hm' & _).
  exists e, v', s', rest. auto.
Qed.

(** Well-formed records are read. *)
Lemma scalar_fails_nil sc : scalar_fails sc [] EndOfBuffer [].
Proof.
  destruct sc; try (apply scalar_fails_varint; [reflexivity|discriminate|apply varint_cut; [cbn; lia|constructor]]; fail);
    try (apply scalar_fails_fixed32; [reflexivity|cbn; lia]; fail); try (apply scalar_fails_fixed64; [reflexivity|cbn; lia]; fail).
  now apply scalar_fails_bool.
Qed.

Lemma dec_reads d :
  (forall t old p new, edec t old p new ->
    (forall bd bs tail, body t p bs -> eread d bd t old (bs ++ tail) NoErrors new tail)
    /\ match t with EMsg fs os => forall bd, mread d bd fs os old p NoErrors new [] | _ => True end)
  /\ (forall fs os old bs new, mdec fs os old bs new -> forall bd, mread d bd fs os old bs NoErrors new [])
  /\ (forall fs os old r new, rdec fs os old r new -> forall bd tail, rread d bd fs os old (r ++ tail) NoErrors new tail).
Proof.
  apply dec_ind.
  - intros sc old p z Hz. split; auto. intros bd bs tail Hb. cbn [body] in Hb. subst bs. constructor. now constructor.
  - intros st max old p Hm Hp. split; auto. intros bd bs tail (l & Hl & ->). rewrite <- app_assoc. now constructor.
  - intros fs os old p new _ IH. split; auto. intros bd bs tail (l & Hl & ->). rewrite <- app_assoc. apply (eread_msg d bd fs os old l (zlen p) p NoErrors new [] tail); auto. now left.
  - intros fs os vs ovs bd. apply mread_end. apply varint_cut; [cbn; lia|constructor].
  - intros fs os v0 r v1 bs v2 _ IH1 _ IH2 bd. eapply mread_next; [apply IH1|apply IH2].
  - intros fs os vs ovs i num t tg p bs old new Hf Ho Htg Hb _ [IH _] bd tail. rewrite <- app_assoc.
    eapply rread_field; eauto. apply fread_plain. auto.
  - intros fs os vs ovs i num t tg p bs new Hf Ho Htg Hb _ [IH _] bd tail. rewrite <- app_assoc.
    eapply rread_field; eauto. apply fread_opt. cbn [opt_start]. auto.
  - intros fs os vs ovs i num t tg p bs old new Hf Ho Htg Hb _ [IH _] bd tail. rewrite <- app_assoc.
    eapply rread_field; eauto. apply fread_opt. cbn [opt_start]. auto.
  - intros fs os vs ovs i num max sc tg p l zs old Hf Ho Htg Hl Hp Hm bd tail. rewrite <- !app_assoc.
    eapply rread_field; eauto. pose proof (fread_packed d bd max sc old l (zlen p) p zs [] tail) as H. rewrite !app_nil_r in H.
    apply H; auto; [now left|now apply packed_dec_reads|apply scalar_fails_nil].
  - intros fs os vs ovs i num max t tg p l old new Hf Ho Hpk Htg Hl He IH Hm bd tail. rewrite <- !app_assoc.
    eapply rread_field; eauto. inversion He as [|st cap ? ? Hc Hb|fs' os' ? ? ? Hmd]; subst; [discriminate| |].
    + apply fread_rep_bytes; auto. lia.
    + apply (fread_rep_msg d bd max fs' os' old l (zlen p) p NoErrors new [] tail); auto; [lia|now left|apply IH].
  - intros fs os vs ovs j num t ms tg p bs old new Hms Hlk Ho Htg Hb _ [IH _] bd tail. rewrite <- app_assoc.
    apply (rread_oneof d bd fs os vs ovs j ms num t (num, SvSome old) tg (bs ++ tail) NoErrors new tail); auto.
    unfold member_start. cbn [fst snd opt_start]. rewrite Z.eqb_refl. auto.
  - intros fs os vs ovs j num t ms tg p bs which old new Hms Hlk Ho Hne Htg Hb _ [IH _] bd tail. rewrite <- app_assoc.
    apply (rread_oneof d bd fs os vs ovs j ms num t (which, old) tg (bs ++ tail) NoErrors new tail); auto.
    unfold member_start. cbn [fst snd]. destruct (Z.eqb_spec num which); [congruence|]. auto.
  - intros fs os vs ovs num w tg bs Hn H0 Htg Hs _ bd tail. rewrite <- app_assoc. eapply rread_unknown; eauto.
Qed.

(** Well-formed records before anything else. *)
Lemma mread_after d bd : forall fs os old pre mid, mdec fs os old pre mid ->
  forall bs e new rest, mread d bd fs os mid bs e new rest -> mread d bd fs os old (pre ++ bs) e new rest.
Proof.
  intros fs os old pre mid H. induction H as [|fs os v0 r v1 bs0 v2 Hr Hm IH]; intros bs e new rest Hf; auto.
  rewrite <- app_assoc. eapply mread_next; [apply (proj2 (proj2 (dec_reads d)) _ _ _ _ _ Hr)|]. auto.
Qed.
Lemma mread_rec d bd fs os old bs e new rest : rread d bd fs os old bs e new rest -> e <> NoErrors ->
  mread d bd fs os old bs e new rest.
Proof. intros. now apply mread_stop. Qed.
Lemma mread_rec_ok d bd fs os old bs vs ovs : rread d bd fs os old bs NoErrors (SvM vs ovs) [] ->
  mread d bd fs os old bs NoErrors (SvM vs ovs) [].
Proof.
  intros H. eapply mread_next; [exact H|]. apply mread_end. apply varint_cut; [cbn; lia|constructor].
Qed.

(** The common shape: well-formed records [pre], then [bs]. *)
Lemma decode_after : forall fs os v d pre mid bs e new rest, let t := EMsg fs os in
  desc_ok t -> wt t v -> clean t v -> mdec fs os (view t v) pre mid -> mread d false fs os mid bs e new rest ->
  d = true \/ e = NoErrors ->
  forall S (R : rops S) rel, reader_ok R rel -> forall s, rel s (pre ++ bs) ->
  forall fuel, (length (pre ++ bs) < fuel)%nat ->
  exists v' s', deserialize fuel t S R v s = Done (e, v', s') /\ rel s' rest
    /\ wt t v' /\ clean t v' /\ view t v' = new.
Proof.
  intros fs os v d pre mid bs e new rest t Hd Hw Hc Hp Hm Hde S R rel ok s Hr fuel Hfu.
  destruct (decode_reads fs os v d false (pre ++ bs) e new rest Hd Hw Hc (mread_after d false _ _ _ _ _ Hp _ _ _ _ Hm) S R rel ok ltac:(discriminate) s Hr fuel Hfu)
    as (v' & s' & E & Hr' & Hw' & Hc' & _ & Hv').
  exists v', s'. auto 8.
Qed.

From Verif Require Import SpecMalformed.

Lemma decodes_after fs os v d pre mid bs e new rest : let t := EMsg fs os in
  desc_ok t -> wt t v -> clean t v -> mdec fs os (view t v) pre mid -> mread d false fs os mid bs e new rest ->
  d = true \/ e = NoErrors -> decodes t v (pre ++ bs) e new rest.
Proof. intros t Hd Hw Hc Hp Hm Hde S R rel ok s Hr fuel Hfu. eapply decode_after; eauto. Qed.

Lemma decodes_all fs os v pre mid : let t := EMsg fs os in
  desc_ok t -> wt t v -> clean t v -> mdec fs os (view t v) pre mid -> decodes t v pre NoErrors mid [].
Proof.
  intros t Hd Hw Hc Hp. pose proof (decodes_after fs os v true pre mid [] NoErrors mid [] Hd Hw Hc Hp) as H. rewrite app_nil_r in H. apply H; auto.
  assert (Hm : exists vs ovs, mid = SvM vs ovs).
  { clear H. induction Hp; eauto. }
  destruct Hm as (vs & ovs & ->). apply mread_end. apply varint_cut; [cbn; lia|constructor].
Qed.

(* ------------------------------------------------------------------------------------------- *)
(** C54, C52 *)

Lemma read_places : forall bd fs os old bs e new rest, rread false bd fs os old bs e new rest -> one_place old new.
Proof.
  intros bd fs os old bs e new rest H. inversion H; subst; eexists _, _; (split; [reflexivity|]); eauto.
Qed.

Lemma failed_place bd fs os old bs e new rest : mread false bd fs os old bs e new rest ->
  exists mid bs', records_read bd fs os old bs mid bs' /\ one_place mid new /\ (e = NoErrors -> mid = new).
Proof.
  intros H. induction H as [bd fs os vs ovs bs Hv|bd fs os vs ovs bs rest Hv|bd fs os vs ovs tg n rest H1 H2|bd fs os old bs e new rest Hr He|bd fs os old bs mid bs' e new rest Hr Hm IH].
  - exists (SvM vs ovs), bs. split; [constructor|]. split; [eexists _, _; split; [reflexivity|auto]|auto].
  - exists (SvM vs ovs), bs. split; [constructor|]. split; [eexists _, _; split; [reflexivity|auto]|auto].
  - exists (SvM vs ovs), (tg ++ rest). split; [constructor|]. split; [eexists _, _; split; [reflexivity|auto]|auto].
  - exists old, bs. split; [constructor|]. split; [eapply read_places; exact Hr|congruence].
  - destruct IH as (mid' & bs'' & IH & IH2). exists mid', bs''. split; [|exact IH2]. eapply records_more; eauto.
Qed.

Lemma kept_before : forall fs os v bs, let t := EMsg fs os in
  desc_ok t -> wt t v -> clean t v -> Forall is_byte bs -> ~ mover fs os (view t v) bs ->
  forall S (R : rops S) rel, reader_ok R rel -> forall s, rel s bs -> forall fuel, (length bs < fuel)%nat ->
  exists e v' s' mid bs', deserialize fuel t S R v s = Done (e, v', s') /\ wt t v' /\ clean t v'
    /\ records_read false fs os (view t v) bs mid bs' /\ one_place mid (view t v') /\ (e = NoErrors -> mid = view t v').
Proof.
  intros fs os v bs t Hd Hw Hc Hb Hno S R rel ok s Hr fuel Hfu.
  destruct (decode_any fs os v bs Hd Hw Hc Hb Hno S R rel ok s Hr fuel Hfu) as (e & v' & s' & rest & E & _ & Hw' & Hc' & Hm).
  destruct (failed_place _ _ _ _ _ _ _ _ Hm) as (mid & bs' & H1 & H2 & H3). exists e, v', s', mid, bs'. auto 8.
Qed.

Lemma kept_before_bounded : forall fs os v bs, let t := EMsg fs os in
  desc_ok t -> wt t v -> clean t v -> Forall is_byte bs ->
  forall S (R : rops S) rel, reader_ok R rel -> reader_bounded R rel -> forall s, rel s bs ->
  forall fuel, (length bs < fuel)%nat ->
  exists e v' s' mid bs', deserialize fuel t S R v s = Done (e, v', s') /\ wt t v' /\ clean t v'
    /\ records_read true fs os (view t v) bs mid bs' /\ one_place mid (view t v') /\ (e = NoErrors -> mid = view t v').
Proof.
  intros fs os v bs t Hd Hw Hc Hb S R rel ok Hbd s Hr fuel Hfu.
  destruct (decode_any_bounded fs os v bs Hd Hw Hc Hb S R rel ok Hbd s Hr fuel Hfu) as (e & v' & s' & rest & E & _ & Hw' & Hc' & Hm).
  destruct (failed_place _ _ _ _ _ _ _ _ Hm) as (mid & bs' & H1 & H2 & H3). exists e, v', s', mid, bs'. auto 8.
Qed.

(* ------------------------------------------------------------------------------------------- *)
(** C43, C44 *)

Lemma zero_number : forall fs os v pre vs ovs tg w rest, let t := EMsg fs os in
  desc_ok t -> wt t v -> clean t v -> mdec fs os (view t v) pre (SvM vs ovs) ->
  varint32 tg (wt_code w) -> decodes t v (pre ++ tg ++ rest) InvalidFieldId (SvM vs ovs) rest.
Proof.
  intros fs os v pre vs ovs tg w rest t Hd Hw Hc Hp Htg.
  eapply (decodes_after fs os v true); eauto. apply mread_stop; [|discriminate]. now apply (rread_zero true false fs os vs ovs tg w).
Qed.

Lemma reserved_wiretype : forall fs os v pre vs ovs tg n rest, let t := EMsg fs os in
  desc_ok t -> wt t v -> clean t v -> mdec fs os (view t v) pre (SvM vs ovs) ->
  varint32 tg n -> 5 < n mod 8 -> decodes t v (pre ++ tg ++ rest) InvalidWiretype (SvM vs ovs) rest.
Proof.
  intros fs os v pre vs ovs tg n rest t Hd Hw Hc Hp Htg Hn.
  eapply (decodes_after fs os v true); eauto. now apply (mread_tag_wiretype true false fs os vs ovs tg n).
Qed.

Lemma wrong_wiretype : forall fs os v pre vs ovs i num k ty x tg w rest, let t := EMsg fs os in
  desc_ok t -> wt t v -> clean t v -> mdec fs os (view t v) pre (SvM vs ovs) ->
  nth_error fs i = Some (num, k, ty) -> k <> KRecursive -> nth_error vs i = Some x ->
  varint32 tg (num * 8 + wt_code w) -> w <> field_wiretype k ty ->
  decodes t v (pre ++ tg ++ rest) InvalidWiretype
    (SvM (upd i (match k with KOpt => shown ty x | _ => x end) vs) ovs) rest.
Proof.
  intros fs os v pre vs ovs i num k ty x tg w rest t Hd Hw Hc Hp Hf Hk Hx Htg Hne.
  eapply (decodes_after fs os v true); eauto. apply mread_stop; [|discriminate].
  eapply rread_field; eauto. destruct k; cbn [field_wiretype] in Hne; try congruence; constructor; auto.
Qed.

Lemma wrong_wiretype_oneof : forall fs os v pre vs ovs j ms num ty o tg w rest, let t := EMsg fs os in
  desc_ok t -> wt t v -> clean t v -> mdec fs os (view t v) pre (SvM vs ovs) ->
  nth_error os j = Some ms -> lookup ms num = Some ty -> nth_error ovs j = Some o ->
  varint32 tg (num * 8 + wt_code w) -> w <> elem_wiretype ty ->
  decodes t v (pre ++ tg ++ rest) InvalidWiretype (SvM vs (upd j (0, SvNone) ovs)) rest.
Proof.
  intros fs os v pre vs ovs j ms num ty o tg w rest t Hd Hw Hc Hp Hf Hk Hx Htg Hne.
  eapply (decodes_after fs os v true); eauto. apply mread_stop; [|discriminate].
  eapply rread_oneof_wiretype; eauto.
Qed.

(* ------------------------------------------------------------------------------------------- *)
(** C33 *)

Lemma plain_opt_element d fs os vs ovs i num k ty x tg bs e x' rest :
  nth_error fs i = Some (num, k, ty) -> k = KPlain \/ k = KOpt -> nth_error vs i = Some x ->
  varint32 tg (num * 8 + wt_code (elem_wiretype ty)) -> eread d false ty (field_start k ty x) bs e x' rest ->
  rread d false fs os (SvM vs ovs) (tg ++ bs) e (SvM (upd i (stored k x') vs) ovs) rest.
Proof.
  intros Hf Hk Hx Htg He. eapply rread_field; eauto. destruct Hk; subst k; now constructor.
Qed.

Lemma string_too_long : forall fs os v pre vs ovs i num k st max x tg l n rest, let t := EMsg fs os in
  let ty := EBytes st max in
  desc_ok t -> wt t v -> clean t v -> mdec fs os (view t v) pre (SvM vs ovs) ->
  nth_error fs i = Some (num, k, ty) -> k = KPlain \/ k = KOpt -> nth_error vs i = Some x ->
  varint32 tg (num * 8 + wt_code LENDEL) -> varint32 l n -> max < n ->
  decodes t v (pre ++ tg ++ l ++ rest) ArrayFull (SvM (upd i (stored k (field_start k ty x)) vs) ovs) rest.
Proof.
  intros fs os v pre vs ovs i num k st max x tg l n rest t ty Hd Hw Hc Hp Hf Hk Hx Htg Hl Hn.
  eapply (decodes_after fs os v true); eauto. apply mread_stop; [|discriminate].
  eapply plain_opt_element; eauto. eapply eread_too_long; eauto.
Qed.

Lemma string_cut : forall fs os v pre vs ovs i num k st max x tg l n p, let t := EMsg fs os in
  let ty := EBytes st max in
  desc_ok t -> wt t v -> clean t v -> mdec fs os (view t v) pre (SvM vs ovs) ->
  nth_error fs i = Some (num, k, ty) -> k = KPlain \/ k = KOpt -> nth_error vs i = Some x ->
  varint32 tg (num * 8 + wt_code LENDEL) -> varint32 l n -> zlen p < n <= max ->
  decodes t v (pre ++ tg ++ l ++ p) EndOfBuffer (SvM (upd i (stored k (SvB p)) vs) ovs) [].
Proof.
  intros fs os v pre vs ovs i num k st max x tg l n p t ty Hd Hw Hc Hp Hf Hk Hx Htg Hl Hn.
  eapply (decodes_after fs os v true); eauto. apply mread_stop; [|discriminate].
  eapply plain_opt_element; eauto. eapply eread_cut; eauto.
Qed.

Lemma string_exact : forall fs os v pre vs ovs i num k st max x tg l p post new, let t := EMsg fs os in
  let ty := EBytes st max in
  desc_ok t -> wt t v -> clean t v -> mdec fs os (view t v) pre (SvM vs ovs) ->
  nth_error fs i = Some (num, k, ty) -> k = KPlain \/ k = KOpt -> nth_error vs i = Some x ->
  varint32 tg (num * 8 + wt_code LENDEL) -> varint32 l (zlen p) -> zlen p <= max ->
  mdec fs os (SvM (upd i (stored k (SvB p)) vs) ovs) post new ->
  decodes t v (pre ++ tg ++ l ++ p ++ post) NoErrors new [].
Proof.
  intros fs os v pre vs ovs i num k st max x tg l p post new t ty Hd Hw Hc Hp Hf Hk Hx Htg Hl Hn Hpost.
  eapply (decodes_after fs os v true); eauto. eapply mread_next; [|apply (proj1 (proj2 (dec_reads true))); exact Hpost].
  eapply plain_opt_element; eauto. now apply eread_bytes.
Qed.

(* ------------------------------------------------------------------------------------------- *)
(** C38 *)

Lemma oneof_malformed : forall fs os v pre vs ovs j ms num ty o tg bs e x rest, let t := EMsg fs os in
  desc_ok t -> wt t v -> clean t v -> mdec fs os (view t v) pre (SvM vs ovs) ->
  nth_error os j = Some ms -> lookup ms num = Some ty -> nth_error ovs j = Some o ->
  varint32 tg (num * 8 + wt_code (elem_wiretype ty)) ->
  eread true false ty (member_start num ty o) bs e x rest -> e <> NoErrors ->
  decodes t v (pre ++ tg ++ bs) e (SvM vs (upd j (0, SvNone) ovs)) rest.
Proof.
  intros fs os v pre vs ovs j ms num ty o tg bs e x rest t Hd Hw Hc Hp Hms Hlk Ho Htg He Hne.
  eapply (decodes_after fs os v true); eauto. apply mread_stop; [|exact Hne].
  replace (0, SvNone) with (member_result e num x) by (destruct e; cbn; congruence).
  eapply rread_oneof; eauto.
Qed.

(* ------------------------------------------------------------------------------------------- *)
(** C42, C55 *)

Lemma packed_decodes : forall fs os v pre vs ovs i num max sc old tg l p zs post new, let t := EMsg fs os in
  desc_ok t -> wt t v -> clean t v -> mdec fs os (view t v) pre (SvM vs ovs) ->
  nth_error fs i = Some (num, KRep max, EScalar sc) -> nth_error vs i = Some (SvR old) ->
  varint32 tg (num * 8 + wt_code LENDEL) -> varint32 l (zlen p) -> packed_dec sc p zs ->
  zlen old + zlen zs <= max ->
  mdec fs os (SvM (upd i (SvR (old ++ map SvZ zs)) vs) ovs) post new ->
  decodes t v (pre ++ (tg ++ l ++ p) ++ post) NoErrors new [].
Proof.
  intros. apply decodes_all; auto. eapply mdec_app; [eassumption|]. eapply mdec_cons; [|eassumption]. eapply rdec_packed; eauto.
Qed.

Lemma unpacked_refused : forall fs os v pre vs ovs i num max sc old tg rest, let t := EMsg fs os in
  desc_ok t -> wt t v -> clean t v -> mdec fs os (view t v) pre (SvM vs ovs) ->
  nth_error fs i = Some (num, KRep max, EScalar sc) -> nth_error vs i = Some (SvR old) ->
  varint32 tg (num * 8 + wt_code (scalar_wiretype sc)) ->
  decodes t v (pre ++ tg ++ rest) InvalidWiretype (SvM vs ovs) rest.
Proof.
  intros fs os v pre vs ovs i num max sc old tg rest t Hd Hw Hc Hp Hf Hx Htg.
  assert (E : upd i (SvR old) vs = vs) by now apply upd_same.
  pose proof (wrong_wiretype fs os v pre vs ovs i num (KRep max) (EScalar sc) (SvR old) tg (scalar_wiretype sc) rest Hd Hw Hc Hp Hf) as H.
  cbv iota in H. rewrite E in H. apply H; auto; try discriminate. cbn. destruct sc; discriminate.
Qed.

Lemma packed_length_ignored : forall fs os v pre vs ovs i num max sc old tg c e rest post new, let t := EMsg fs os in
  desc_ok t -> wt t v -> clean t v -> mdec fs os (view t v) pre (SvM vs ovs) ->
  nth_error fs i = Some (num, KRep max, EScalar sc) -> nth_error vs i = Some (SvR old) ->
  varint32 tg (num * 8 + wt_code LENDEL) -> varint_fails 5 c e rest ->
  mread true false fs os (SvM vs ovs) rest post new [] ->
  decodes t v (pre ++ tg ++ c) post new [].
Proof.
  intros fs os v pre vs ovs i num max sc old tg c e rest post new t Hd Hw Hc Hp Hf Hx Htg Hfl Hm.
  eapply (decodes_after fs os v true); eauto. eapply mread_next; [|exact Hm].
  rewrite <- (upd_same i (SvR old) vs Hx) at 2. eapply rread_field; eauto. eapply fread_packed_length; eauto.
Qed.

Lemma packed_partial_dropped : forall fs os v pre vs ovs i num max sc old tg l q r zs post new, let t := EMsg fs os in
  desc_ok t -> wt t v -> clean t v -> mdec fs os (view t v) pre (SvM vs ovs) ->
  nth_error fs i = Some (num, KRep max, EScalar sc) -> nth_error vs i = Some (SvR old) ->
  varint32 tg (num * 8 + wt_code LENDEL) -> varint32 l (zlen (q ++ r)) -> packed_dec sc q zs ->
  zlen old + zlen zs <= max -> scalar_fails sc r EndOfBuffer [] ->
  mdec fs os (SvM (upd i (SvR (old ++ map SvZ zs)) vs) ovs) post new ->
  decodes t v (pre ++ tg ++ l ++ (q ++ r) ++ post) NoErrors new [].
Proof.
  intros fs os v pre vs ovs i num max sc old tg l q r zs post new t Hd Hw Hc Hp Hf Hx Htg Hl Hq Hm Hr Hpost.
  eapply (decodes_after fs os v true); eauto. eapply mread_next; [|apply (proj1 (proj2 (dec_reads true))); exact Hpost].
  eapply rread_field; eauto. eapply fread_packed; eauto; [now left|now apply packed_dec_reads].
Qed.

Lemma packed_too_many : forall fs os v pre vs ovs i num max sc old tg l q zs c z r rest, let t := EMsg fs os in
  desc_ok t -> wt t v -> clean t v -> mdec fs os (view t v) pre (SvM vs ovs) ->
  nth_error fs i = Some (num, KRep max, EScalar sc) -> nth_error vs i = Some (SvR old) ->
  varint32 tg (num * 8 + wt_code LENDEL) -> varint32 l (zlen (q ++ c ++ r)) ->
  packed_dec sc q zs -> zlen old + zlen zs = max -> scalar_dec sc c z ->
  decodes t v (pre ++ tg ++ l ++ (q ++ c ++ r) ++ rest) ArrayFull
    (SvM (upd i (SvR (old ++ map SvZ zs)) vs) ovs) (r ++ rest).
Proof.
  intros fs os v pre vs ovs i num max sc old tg l q zs c z r rest t Hd Hw Hc Hp Hf Hx Htg Hl Hq Hm Hz.
  eapply (decodes_after fs os v true); eauto. apply mread_stop; [|discriminate].
  eapply rread_field; eauto. eapply fread_packed_full; eauto; [now left|now apply packed_dec_reads|apply scalar_reads_dec; exact Hz].
Qed.

Lemma packed_overlong : forall fs os v pre vs ovs i num max sc old tg l q zs r rest' rest, let t := EMsg fs os in
  desc_ok t -> wt t v -> clean t v -> mdec fs os (view t v) pre (SvM vs ovs) ->
  nth_error fs i = Some (num, KRep max, EScalar sc) -> nth_error vs i = Some (SvR old) ->
  varint32 tg (num * 8 + wt_code LENDEL) -> varint32 l (zlen (q ++ r)) ->
  packed_dec sc q zs -> zlen old + zlen zs <= max -> scalar_fails sc r OverlongVarint rest' ->
  decodes t v (pre ++ tg ++ l ++ (q ++ r) ++ rest) OverlongVarint
    (SvM (upd i (SvR (old ++ map SvZ zs)) vs) ovs) (rest' ++ rest).
Proof.
  intros fs os v pre vs ovs i num max sc old tg l q zs r rest' rest t Hd Hw Hc Hp Hf Hx Htg Hl Hq Hm Hz.
  eapply (decodes_after fs os v true); eauto. apply mread_stop; [|discriminate].
  eapply rread_field; eauto. eapply fread_packed_fails; eauto; [now left|now apply packed_dec_reads|discriminate].
Qed.

(* ------------------------------------------------------------------------------------------- *)
(** C41 *)

Lemma dropped_field : forall fs os v pre vs ovs i num ty x tg w bs e new rest, let t := EMsg fs os in
  desc_ok t -> wt t v -> clean t v -> mdec fs os (view t v) pre (SvM vs ovs) ->
  nth_error fs i = Some (num, KRecursive, ty) -> nth_error vs i = Some x ->
  varint32 tg (num * 8 + wt_code w) ->
  mread true false fs os (SvM vs ovs) bs e new rest ->
  decodes t v (pre ++ tg ++ bs) e new rest.
Proof.
  intros fs os v pre vs ovs i num ty x tg w bs e new rest t Hd Hw Hc Hp Hf Hx Htg Hm.
  eapply (decodes_after fs os v true); eauto. eapply mread_next; [|exact Hm].
  rewrite <- (upd_same i x vs Hx) at 2. eapply rread_field; eauto. apply fread_recursive.
Qed.

Lemma dropped_empty : forall fs os v pre vs ovs i num ty x tg rest, let t := EMsg fs os in
  desc_ok t -> wt t v -> clean t v -> mdec fs os (view t v) pre (SvM vs ovs) ->
  nth_error fs i = Some (num, KRecursive, ty) -> nth_error vs i = Some x ->
  varint32 tg (num * 8 + wt_code LENDEL) ->
  decodes t v (pre ++ tg ++ [0] ++ rest) InvalidFieldId (SvM vs ovs) rest.
Proof.
  intros fs os v pre vs ovs i num ty x tg rest t Hd Hw Hc Hp Hf Hx Htg.
  eapply dropped_field; eauto. apply mread_stop; [|discriminate]. apply (rread_zero true false fs os vs ovs [0] VARINT).
  split; [|reflexivity]. exists [], 0. repeat split; auto; cbn; lia.
Qed.

(** Records with unknown numbers change nothing. *)
Lemma unknown_same fs os vs ovs us : unknown_records fs os us -> mdec fs os (SvM vs ovs) us (SvM vs ovs).
Proof. intros H. induction H; [constructor|]. eapply mdec_cons; [|eassumption]. eapply rdec_unknown; eauto. Qed.

Lemma dropped_unknown : forall fs os v pre vs ovs i num ty x tg w us post new, let t := EMsg fs os in
  desc_ok t -> wt t v -> clean t v -> mdec fs os (view t v) pre (SvM vs ovs) ->
  nth_error fs i = Some (num, KRecursive, ty) -> nth_error vs i = Some x ->
  varint32 tg (num * 8 + wt_code w) -> unknown_records fs os us -> mdec fs os (SvM vs ovs) post new ->
  decodes t v (pre ++ tg ++ us ++ post) NoErrors new [].
Proof.
  intros fs os v pre vs ovs i num ty x tg w us post new t Hd Hw Hc Hp Hf Hx Htg Hu Hm.
  eapply dropped_field; eauto. apply (proj1 (proj2 (dec_reads true))). eapply mdec_app; [|exact Hm]. now apply unknown_same.
Qed.

(* ------------------------------------------------------------------------------------------- *)
(** C25 *)

Lemma group_leaks : forall fs os v pre vs ovs num tg inner vs' ovs' tg' post new, let t := EMsg fs os in
  desc_ok t -> wt t v -> clean t v -> mdec fs os (view t v) pre (SvM vs ovs) ->
  ~ In num (field_numbers fs os) -> 0 < num ->
  varint32 tg (num * 8 + wt_code STARTGROUP) -> mdec fs os (SvM vs ovs) inner (SvM vs' ovs') ->
  varint32 tg' (num * 8 + wt_code ENDGROUP) -> mdec fs os (SvM vs' ovs') post new ->
  decodes t v (pre ++ tg ++ inner ++ tg' ++ post) NoErrors new [].
Proof.
  intros fs os v pre vs ovs num tg inner vs' ovs' tg' post new t Hd Hw Hc Hp Hn H0 Htg Hi Htg' Hpost.
  eapply (decodes_after fs os v true); eauto. eapply mread_next; [apply (rread_unknown_group true false fs os vs ovs num tg STARTGROUP); auto|].
  eapply mread_after; [exact Hi|]. eapply mread_next; [apply (rread_unknown_group true false fs os vs' ovs' num tg' ENDGROUP); auto|].
  apply (proj1 (proj2 (dec_reads true))). exact Hpost.
Qed.

Lemma groups_read d fs os vs ovs us : unknown_groups fs os us -> forall bs e new rest,
  mread d false fs os (SvM vs ovs) bs e new rest -> mread d false fs os (SvM vs ovs) (us ++ bs) e new rest.
Proof.
  intros H. induction H as [|num w tg r us Hn H0 Htg Hs Hu IH|num tg inner tg' us Hn H0 Htg Hi IHi Htg' Hu IH]; intros bs e new rest Hm; auto.
  - rewrite <- !app_assoc. eapply mread_next; [eapply rread_unknown; eauto|]. auto.
  - rewrite <- !app_assoc. eapply mread_next; [apply (rread_unknown_group d false fs os vs ovs num tg STARTGROUP); auto|].
    apply IHi. eapply mread_next; [apply (rread_unknown_group d false fs os vs ovs num tg' ENDGROUP); auto|]. auto.
Qed.

Lemma groups_skipped : forall fs os v pre vs ovs us post new, let t := EMsg fs os in
  desc_ok t -> wt t v -> clean t v -> mdec fs os (view t v) pre (SvM vs ovs) ->
  unknown_groups fs os us -> mdec fs os (SvM vs ovs) post new ->
  decodes t v (pre ++ us ++ post) NoErrors new [].
Proof.
  intros fs os v pre vs ovs us post new t Hd Hw Hc Hp Hu Hpost.
  eapply (decodes_after fs os v true); eauto. apply groups_read; auto. apply (proj1 (proj2 (dec_reads true))). exact Hpost.
Qed.

(* ------------------------------------------------------------------------------------------- *)
(** C51 *)

Lemma wf_over k c : varint_wf 10 c -> (k < length c)%nat ->
  exists a b, c = a ++ b /\ length a = k /\ Forall (fun b => 128 <= b < 256) a.
Proof.
  intros (init & last & -> & Hlen & Hi & Hl) Hk. rewrite app_length in Hk. cbn in Hk.
  exists (firstn k init), (skipn k init ++ [last]). rewrite app_assoc, firstn_skipn. split; [reflexivity|].
  split; [apply firstn_length_le; lia|]. now apply Forall_firstn.
Qed.

Lemma long_varint_refused : forall fs os v pre vs ovs i num k sc x tg c rest, let t := EMsg fs os in
  desc_ok t -> wt t v -> clean t v -> mdec fs os (view t v) pre (SvM vs ovs) ->
  nth_error fs i = Some (num, k, EScalar sc) -> k = KPlain \/ k = KOpt -> nth_error vs i = Some x ->
  sc = UInt32 \/ sc = Enumeration ->
  varint32 tg (num * 8 + wt_code VARINT) -> varint_wf 10 c -> (5 < length c)%nat ->
  exists new rest', decodes t v (pre ++ tg ++ c ++ rest) OverlongVarint new rest'.
Proof.
  intros fs os v pre vs ovs i num k sc x tg c rest t Hd Hw Hc Hp Hf Hk Hx Hsc Htg Hwf Hlen.
  destruct (wf_over 5 c Hwf Hlen) as (a & b & -> & Ha & Hb).
  do 2 eexists. eapply (decodes_after fs os v true); eauto. apply mread_stop; [|discriminate].
  eapply plain_opt_element; eauto. { destruct Hsc; subst sc; exact Htg. }
  rewrite <- app_assoc. apply eread_scalar_fails. apply scalar_fails_varint; [destruct Hsc; subst sc; reflexivity|destruct Hsc; subst sc; discriminate|].
  destruct Hsc; subst sc; now apply varint_overlong.
Qed.

Lemma any_varint_read : forall fs os v pre vs ovs i num k sc x tg c post new, let t := EMsg fs os in
  desc_ok t -> wt t v -> clean t v -> mdec fs os (view t v) pre (SvM vs ovs) ->
  nth_error fs i = Some (num, k, EScalar sc) -> k = KPlain \/ k = KOpt -> nth_error vs i = Some x ->
  varint32 tg (num * 8 + wt_code VARINT) -> varint_wf 10 c ->
  forall z, z = match sc with
                | Int32 => to_signed 32 (varint_value c)
                | Int64 => to_signed 64 (varint_value c)
                | UInt64 => varint_value c mod 2 ^ 64
                | SInt32 => unzigzag (varint_value c mod 2 ^ 32)
                | SInt64 => unzigzag (varint_value c mod 2 ^ 64)
                | _ => varint_value c mod 2 ^ 32
                end ->
  match sc with
  | Int32 | Int64 | UInt64 | SInt32 | SInt64 => True
  | UInt32 | Enumeration => (length c <= 5)%nat
  | _ => False
  end ->
  mdec fs os (SvM (upd i (stored k (SvZ z)) vs) ovs) post new ->
  decodes t v (pre ++ tg ++ c ++ post) NoErrors new [].
Proof.
  intros fs os v pre vs ovs i num k sc x tg c post new t Hd Hw Hc Hp Hf Hk Hx Htg Hwf z Hz Hsc Hpost.
  eapply (decodes_after fs os v true); eauto. eapply mread_next; [|apply (proj1 (proj2 (dec_reads true))); exact Hpost].
  assert (Hs : scalar_dec sc c z).
  { destruct Hwf as (init & last & Hwf). destruct sc; try contradiction; cbn [scalar_dec]; (split; [|exact Hz]); exists init, last; tauto. }
  eapply plain_opt_element; eauto. { destruct sc; try contradiction; exact Htg. }
  apply eread_scalar. now apply scalar_reads_dec.
Qed.

(* ------------------------------------------------------------------------------------------- *)
(** C29 *)

Lemma cut_tag : forall fs os v pre vs ovs c, let t := EMsg fs os in
  desc_ok t -> wt t v -> clean t v -> mdec fs os (view t v) pre (SvM vs ovs) ->
  (length c < 5)%nat -> Forall (fun b => 128 <= b < 256) c ->
  decodes t v (pre ++ c) NoErrors (SvM vs ovs) [].
Proof.
  intros fs os v pre vs ovs c t Hd Hw Hc Hp Hl Hf.
  eapply (decodes_after fs os v true); eauto. apply mread_end. now apply varint_cut.
Qed.

Lemma cut_nested : forall fs os v pre vs ovs i num k f o x tg l n p x', let t := EMsg fs os in
  desc_ok t -> wt t v -> clean t v -> mdec fs os (view t v) pre (SvM vs ovs) ->
  nth_error fs i = Some (num, k, EMsg f o) -> k = KPlain \/ k = KOpt -> nth_error vs i = Some x ->
  varint32 tg (num * 8 + wt_code LENDEL) -> varint32 l n -> zlen p < n ->
  mdec f o (field_start k (EMsg f o) x) p x' ->
  decodes t v (pre ++ tg ++ l ++ p) NoErrors (SvM (upd i (stored k x') vs) ovs) [].
Proof.
  intros fs os v pre vs ovs i num k f o x tg l n p x' t Hd Hw Hc Hp Hf Hk Hx Htg Hl Hn Hm.
  eapply (decodes_after fs os v true); eauto. apply mread_rec_ok.
  eapply plain_opt_element; eauto. rewrite <- (app_nil_r p).
  apply (eread_msg true false f o _ l n p NoErrors x' [] []); auto. { right. auto. }
  apply (proj1 (proj2 (dec_reads true))). exact Hm.
Qed.

Lemma cut_packed : forall fs os v pre vs ovs i num max sc old tg l n q zs, let t := EMsg fs os in
  desc_ok t -> wt t v -> clean t v -> mdec fs os (view t v) pre (SvM vs ovs) ->
  nth_error fs i = Some (num, KRep max, EScalar sc) -> nth_error vs i = Some (SvR old) ->
  varint32 tg (num * 8 + wt_code LENDEL) -> varint32 l n -> zlen q < n ->
  packed_dec sc q zs -> zlen old + zlen zs <= max ->
  decodes t v (pre ++ tg ++ l ++ q) NoErrors (SvM (upd i (SvR (old ++ map SvZ zs)) vs) ovs) [].
Proof.
  intros fs os v pre vs ovs i num max sc old tg l n q zs t Hd Hw Hc Hp Hf Hx Htg Hl Hn Hq Hm.
  eapply (decodes_after fs os v true); eauto. apply mread_rec_ok. eapply rread_field; eauto.
  pose proof (fread_packed true false max sc old l n q zs [] []) as H. rewrite !app_nil_r in H. apply H; auto; [right; auto|now apply packed_dec_reads|apply scalar_fails_nil].
Qed.

Lemma app_split {A} (x y a b : list A) : x ++ y = a ++ b ->
  (exists c, a = x ++ c /\ y = c ++ b) \/ (exists c, c <> [] /\ x = a ++ c /\ b = c ++ y).
Proof.
  revert a. induction x as [|h x IH]; intros a E.
  - left. exists a. auto.
  - destruct a as [|h' a].
    + right. exists (h :: x). split; [discriminate|]. auto.
    + cbn in E. injection E as -> E. destruct (IH a E) as [(c & -> & ->)|(c & Hc & -> & ->)]; [left|right]; exists c; auto.
Qed.

Lemma wf_cut k a b : varint_wf k (a ++ b) -> b <> [] -> (length a < k)%nat /\ Forall (fun x => 128 <= x < 256) a.
Proof.
  intros (init & last & E & Hlen & Hi & _) Hb. destruct (exists_last Hb) as (b' & y & ->). rewrite app_assoc in E.
  apply app_inj_tail in E. destruct E as [E _]. subst init. apply Forall_app in Hi. destruct Hi as [Hi _].
  split; [|exact Hi]. rewrite !app_length in Hlen. cbn in Hlen. lia.
Qed.

Lemma scalar_cut sc a b z : scalar_dec sc (a ++ b) z -> b <> [] -> scalar_fails sc a EndOfBuffer [].
Proof.
  intros H Hb. assert (Hlb : (0 < length b)%nat) by (destruct b; [congruence|cbn; lia]).
  destruct sc; cbn [scalar_dec] in H; destruct H as [H _];
    try (destruct (wf_cut _ _ _ H Hb) as [H1 H2]; apply scalar_fails_varint; [reflexivity|discriminate|now apply varint_cut]; fail);
    try (rewrite app_length in H; first [apply scalar_fails_fixed32; [reflexivity|lia]|apply scalar_fails_fixed64; [reflexivity|lia]]; fail).
  destruct (wf_cut _ _ _ H Hb) as [H1 _]. destruct a; [now apply scalar_fails_bool|cbn in H1; lia].
Qed.

Lemma packed_cut sc p zs : packed_dec sc p zs -> forall a b, p = a ++ b ->
  exists q r zs', a = q ++ r /\ packed_dec sc q zs' /\ zlen zs' <= zlen zs /\ scalar_fails sc r EndOfBuffer [].
Proof.
  intros H. induction H as [|c z q zs Hc Hq IH]; intros a b E.
  - symmetry in E. apply app_eq_nil in E. destruct E as [-> ->]. exists [], [], []. repeat split; [constructor|lia|apply scalar_fails_nil].
  - destruct (app_split _ _ _ _ E) as [(c' & -> & ->)|(c' & Hne & -> & ->)].
    + destruct (IH c' b eq_refl) as (q' & r & zs' & -> & H1 & H2 & H3). exists (c ++ q'), r, (z :: zs').
      split; [now rewrite app_assoc|]. split; [now constructor|]. rewrite !zlen_cons. split; [lia|exact H3].
    + exists [], a, []. split; [reflexivity|]. split; [constructor|]. rewrite zlen_nil. pose proof (zlen_nonneg (z :: zs)).
      split; [lia|]. eapply scalar_cut; eauto.
Qed.

(** Decoding the beginning [a] of an encoding. *)
Definition cut_m (u : bool) (fs : list fdesc) (os : list odesc) (old : sval) (bs : list Z) : Prop :=
  forall a b, bs = a ++ b ->
  (exists e m, mread false false fs os old a e m [] /\ (e = EndOfBuffer \/ (e = NoErrors /\ seam fs os a)))
  \/ (u = true /\ mover fs os old a).
Definition cut_r (u : bool) (fs : list fdesc) (os : list odesc) (old : sval) (bs : list Z) : Prop :=
  forall a b, bs = a ++ b -> b <> [] ->
  (exists e m, mread false false fs os old a e m [] /\ (e = EndOfBuffer \/ (e = NoErrors /\ seam fs os a)))
  \/ (u = true /\ mover fs os old a).
Definition cut_e (u : bool) (t : ety) (old : sval) (p : list Z) : Prop :=
  match t with EMsg fs os => cut_m u fs os old p | _ => True end.

Lemma elem_cut u t old p new bs a b : edecu u t old p new -> cut_e u t old p -> body t p bs -> bs = a ++ b -> b <> [] ->
  (exists x, eread false false t old a EndOfBuffer x [])
  \/ (exists f o l n q x, t = EMsg f o /\ a = l ++ q /\ varint32 l n /\ zlen q < n /\ seam f o q
      /\ eread false false t old a NoErrors x [])
  \/ (u = true /\ eover t old a).
Proof.
  intros He Hcut Hb E Hne. inversion He as [sc ? ? z Hz|st max ? ? Hm Hp|f o ? ? ? Hmd]; subst.
  - cbn [body] in Hb. subst p. left. exists old. apply eread_scalar_fails. eapply scalar_cut; eauto.
  - destruct Hb as (l & Hl & E). destruct (app_split _ _ _ _ (eq_sym E)) as [(c & -> & ->)|(c & Hc & -> & ->)].
    + left. eexists. eapply eread_cut; [exact Hl|]. rewrite zlen_app in *. assert (0 < zlen b) by (destruct b; [congruence|rewrite zlen_cons; pose proof (zlen_nonneg b); lia]). lia.
    + left. exists old. apply eread_length; [reflexivity|]. destruct (wf_cut _ _ _ (proj1 Hl) Hc). now apply varint_cut.
  - destruct Hb as (l & Hl & E). destruct (app_split _ _ _ _ (eq_sym E)) as [(c & -> & ->)|(c & Hc & -> & ->)].
    + assert (Hlt : zlen c < zlen (c ++ b)). { rewrite zlen_app. destruct b; [congruence|]. rewrite zlen_cons. pose proof (zlen_nonneg b). lia. }
      destruct (Hcut c b eq_refl) as [(e & m & Hr & He')|[Hu Hov]].
      * assert (Hr' : eread false false (EMsg f o) old (l ++ c) e m []).
        { rewrite <- (app_nil_r c). apply (eread_msg false false f o old l (zlen (c ++ b)) c e m [] []); auto; [right; auto|].
          destruct (Z.eqb_spec (zlen (c ++ b)) (zlen c)); [lia|exact Hr]. }
        destruct He' as [-> | [-> Hs]]; [left; eauto|]. right. left. exists f, o, l, (zlen (c ++ b)), c, m. auto 8.
      * right. right. split; [exact Hu|]. eapply eover_msg; [exact Hl|exact Hlt|exact Hov].
    + left. exists old. apply eread_length; [reflexivity|]. destruct (wf_cut _ _ _ (proj1 Hl) Hc). now apply varint_cut.
Qed.

Lemma seam_end d fs os vs ovs c : (length c < 5)%nat -> Forall (fun x => 128 <= x < 256) c ->
  mread d false fs os (SvM vs ovs) c NoErrors (SvM vs ovs) [] /\ seam fs os c.
Proof. intros. split; [apply mread_end; now apply varint_cut|now apply seam_tag]. Qed.

Lemma cut_ok u :
  (forall t old p new, edecu u t old p new -> cut_e u t old p)
  /\ (forall fs os old bs new, mdecu u fs os old bs new -> cut_m u fs os old bs)
  /\ (forall fs os old r new, rdecu u fs os old r new -> cut_r u fs os old r).
Proof.
  apply dec_ind.
  - intros; exact I.
  - intros; exact I.
  - intros fs os old p new _ IH. exact IH.
  - intros fs os vs ovs a b E. symmetry in E. apply app_eq_nil in E. destruct E as [-> ->]. left. eexists _, _.
    destruct (seam_end false fs os vs ovs []); [cbn; lia|constructor|]. split; [eassumption|]. right. auto.
  - intros fs os v0 r v1 bs v2 Hr IH1 Hm IH2 a b E.
    destruct (app_split _ _ _ _ E) as [(c & -> & ->)|(c & Hc & -> & ->)].
    + pose proof (proj2 (proj2 (dec_reads false)) _ _ _ _ _ (proj2 (proj2 (dec_allow u)) _ _ _ _ _ Hr) false c) as Hrr.
      destruct (IH2 c b eq_refl) as [(e & m & Hmr & He)|[Hu Hov]].
      * left. exists e, m. split; [eapply mread_next; eauto|]. destruct He as [He|[He Hs]]; [now left|]. right. split; [exact He|]. apply seam_record; [exists v0, v1; exact (proj2 (proj2 (dec_allow u)) _ _ _ _ _ Hr)|exact Hs].
      * right. split; [exact Hu|]. eapply mover_next; eauto.
    + apply (IH1 a c eq_refl Hc).
  - intros fs os vs ovs i num t tg p bs old new Hf Ho Htg Hb He IH a b E Hne.
    destruct (app_split _ _ _ _ E) as [(c & -> & Ec)|(c & Hc & -> & ->)].
    2:{ left. destruct (wf_cut _ _ _ (proj1 Htg) Hc) as [H1 H2]. destruct (seam_end false fs os vs ovs a H1 H2). eexists _, _. split; [eassumption|]. right. auto. }
    destruct (elem_cut u t old p new bs c b He IH Hb Ec Hne) as [(x & Hx)|[(f & o & l & n & q & x & -> & -> & Hl & Hn & Hs & Hx)|[Hu Hov]]].
    + left. eexists _, _. split; [|left; reflexivity]. apply mread_stop; [|discriminate]. eapply rread_field; eauto. apply fread_plain. exact Hx.
    + left. eexists _, _. split; [|right; split; [reflexivity|]]. { apply mread_rec_ok. eapply rread_field; eauto. apply fread_plain. exact Hx. }
      eapply seam_msg; eauto. left. eauto.
    + right. split; [exact Hu|]. inversion Hov; subst. eapply mover_plain; eauto.
  - intros fs os vs ovs i num t tg p bs new Hf Ho Htg Hb He IH a b E Hne.
    destruct (app_split _ _ _ _ E) as [(c & -> & Ec)|(c & Hc & -> & ->)].
    2:{ left. destruct (wf_cut _ _ _ (proj1 Htg) Hc) as [H1 H2]. destruct (seam_end false fs os vs ovs a H1 H2). eexists _, _. split; [eassumption|]. right. auto. }
    destruct (elem_cut u t _ p new bs c b He IH Hb Ec Hne) as [(x & Hx)|[(f & o & l & n & q & x & -> & -> & Hl & Hn & Hs & Hx)|[Hu Hov]]].
    + left. eexists _, _. split; [|left; reflexivity]. apply mread_stop; [|discriminate]. eapply rread_field; eauto. apply fread_opt. exact Hx.
    + left. eexists _, _. split; [|right; split; [reflexivity|]]. { apply mread_rec_ok. eapply rread_field; eauto. apply fread_opt. exact Hx. }
      eapply seam_msg; eauto. left. eauto.
    + right. split; [exact Hu|]. inversion Hov; subst. eapply mover_opt; eauto.
  - intros fs os vs ovs i num t tg p bs old new Hf Ho Htg Hb He IH a b E Hne.
    destruct (app_split _ _ _ _ E) as [(c & -> & Ec)|(c & Hc & -> & ->)].
    2:{ left. destruct (wf_cut _ _ _ (proj1 Htg) Hc) as [H1 H2]. destruct (seam_end false fs os vs ovs a H1 H2). eexists _, _. split; [eassumption|]. right. auto. }
    destruct (elem_cut u t _ p new bs c b He IH Hb Ec Hne) as [(x & Hx)|[(f & o & l & n & q & x & -> & -> & Hl & Hn & Hs & Hx)|[Hu Hov]]].
    + left. eexists _, _. split; [|left; reflexivity]. apply mread_stop; [|discriminate]. eapply rread_field; eauto. apply fread_opt. exact Hx.
    + left. eexists _, _. split; [|right; split; [reflexivity|]]. { apply mread_rec_ok. eapply rread_field; eauto. apply fread_opt. exact Hx. }
      eapply seam_msg; eauto. left. eauto.
    + right. split; [exact Hu|]. inversion Hov; subst. eapply mover_opt; eauto.
  - intros fs os vs ovs i num max sc tg p l zs old Hf Ho Htg Hl Hp Hm a b E Hne.
    destruct (app_split _ _ _ _ E) as [(c & -> & Ec)|(c & Hc & -> & ->)].
    2:{ left. destruct (wf_cut _ _ _ (proj1 Htg) Hc) as [H1 H2]. destruct (seam_end false fs os vs ovs a H1 H2). eexists _, _. split; [eassumption|]. right. auto. }
    left. destruct (app_split _ _ _ _ Ec) as [(c' & -> & ->)|(c' & Hc & -> & ->)].
    + assert (Hlt : zlen c' < zlen (c' ++ b)). { rewrite zlen_app. destruct b; [congruence|]. rewrite zlen_cons. pose proof (zlen_nonneg b). lia. }
      destruct (packed_cut sc _ zs Hp c' b eq_refl) as (q & r & zs' & -> & Hq & Hz & Hr).
      eexists _, _. split; [|right; split; [reflexivity|]].
      { apply mread_rec_ok. eapply rread_field; eauto. pose proof (fread_packed false false max sc old l (zlen ((q ++ r) ++ b)) q zs' r []) as H.
        rewrite app_nil_r in H. apply H; auto; [right; auto|now apply packed_dec_reads|lia]. }
      eapply seam_packed; eauto. left. eauto.
    + destruct (wf_cut _ _ _ (proj1 Hl) Hc) as [H1 H2].
      eexists _, _. split; [|right; split; [reflexivity|]].
      { apply mread_rec_ok. eapply rread_field; eauto. eapply fread_packed_length. now apply varint_cut. }
      eapply seam_packed_length; eauto. left. eauto.
  - intros fs os vs ovs i num max t tg p l old new Hf Ho Hpk Htg Hl He IH Hm a b E Hne.
    destruct (app_split _ _ _ _ E) as [(c & -> & Ec)|(c & Hc & -> & ->)].
    2:{ left. destruct (wf_cut _ _ _ (proj1 Htg) Hc) as [H1 H2]. destruct (seam_end false fs os vs ovs a H1 H2). eexists _, _. split; [eassumption|]. right. auto. }
    destruct (app_split _ _ _ _ Ec) as [(c' & -> & ->)|(c' & Hc & -> & ->)].
    + assert (Hlt : zlen c' < zlen (c' ++ b)). { rewrite zlen_app. destruct b; [congruence|]. rewrite zlen_cons. pose proof (zlen_nonneg b). lia. }
      inversion He as [|st cap ? ? Hcap Hb|f o ? ? ? Hmd]; subst; [discriminate| |].
      * left. eexists _, _. split; [|left; reflexivity]. apply mread_stop; [|discriminate]. eapply rread_field; eauto.
        eapply fread_rep_bytes_cut; eauto; lia.
      * destruct (IH c' b eq_refl) as [(e & m & Hr & He')|[Hu Hov]].
        -- left. assert (Hrr : rread false false fs os (SvM vs ovs) (tg ++ l ++ c') e (SvM (upd i (SvR (old ++ [m])) vs) ovs) []).
           { eapply rread_field; eauto. rewrite <- (app_nil_r c'). apply (fread_rep_msg false false max f o old l (zlen (c' ++ b)) c' e m [] []); auto; [lia|right; auto|].
             destruct (Z.eqb_spec (zlen (c' ++ b)) (zlen c')); [lia|exact Hr]. }
           destruct He' as [-> | [-> Hs]]; eexists _, _.
           ++ split; [|left; reflexivity]. apply mread_stop; [exact Hrr|discriminate].
           ++ split; [apply mread_rec_ok; exact Hrr|]. right. split; [reflexivity|]. eapply seam_msg; eauto. left. eauto.
        -- right. split; [exact Hu|]. eapply mover_rep; eauto; [lia|]. eapply eover_msg; [exact Hl|exact Hlt|exact Hov].
    + left. destruct (wf_cut _ _ _ (proj1 Hl) Hc) as [H1 H2].
      inversion He as [|st cap ? ? Hcap Hb|f o ? ? ? Hmd]; subst; [discriminate| |];
        (eexists _, _; split; [|left; reflexivity]; apply mread_stop; [|discriminate]; eapply rread_field; eauto).
      * apply (fread_rep_bytes_length false false max st cap old []); auto; [lia|now apply varint_cut].
      * apply fread_rep_msg_length; [lia|now apply varint_cut].
  - intros fs os vs ovs j num t ms tg p bs old new Hms Hlk Ho Htg Hb He IH a b E Hne.
    destruct (app_split _ _ _ _ E) as [(c & -> & Ec)|(c & Hc & -> & ->)].
    2:{ left. destruct (wf_cut _ _ _ (proj1 Htg) Hc) as [H1 H2]. destruct (seam_end false fs os vs ovs a H1 H2). eexists _, _. split; [eassumption|]. right. auto. }
    assert (Hst : member_start num t (num, SvSome old) = old) by (unfold member_start; cbn [fst snd opt_start]; now rewrite Z.eqb_refl).
    destruct (elem_cut u t old p new bs c b He IH Hb Ec Hne) as [(x & Hx)|[(f & o & l & n & q & x & -> & -> & Hl & Hn & Hs & Hx)|[Hu Hov]]].
    + left. eexists _, _. split; [|left; reflexivity]. apply mread_stop; [|discriminate]. eapply rread_oneof; eauto. rewrite Hst. exact Hx.
    + left. eexists _, _. split; [|right; split; [reflexivity|]]. { apply mread_rec_ok. eapply rread_oneof; eauto. rewrite Hst. exact Hx. }
      eapply seam_msg; eauto. right. eauto.
    + right. split; [exact Hu|]. inversion Hov; subst. eapply mover_oneof; eauto. now rewrite Hst.
  - intros fs os vs ovs j num t ms tg p bs which old new Hms Hlk Ho Hnw Htg Hb He IH a b E Hne.
    destruct (app_split _ _ _ _ E) as [(c & -> & Ec)|(c & Hc & -> & ->)].
    2:{ left. destruct (wf_cut _ _ _ (proj1 Htg) Hc) as [H1 H2]. destruct (seam_end false fs os vs ovs a H1 H2). eexists _, _. split; [eassumption|]. right. auto. }
    assert (Hst : member_start num t (which, old) = sdefault t) by (unfold member_start; cbn [fst snd]; destruct (Z.eqb_spec num which); [congruence|reflexivity]).
    destruct (elem_cut u t _ p new bs c b He IH Hb Ec Hne) as [(x & Hx)|[(f & o & l & n & q & x & -> & -> & Hl & Hn & Hs & Hx)|[Hu Hov]]].
    + left. eexists _, _. split; [|left; reflexivity]. apply mread_stop; [|discriminate]. eapply rread_oneof; eauto. rewrite Hst. exact Hx.
    + left. eexists _, _. split; [|right; split; [reflexivity|]]. { apply mread_rec_ok. eapply rread_oneof; eauto. rewrite Hst. exact Hx. }
      eapply seam_msg; eauto. right. eauto.
    + right. split; [exact Hu|]. inversion Hov; subst. eapply mover_oneof; eauto. now rewrite Hst.
  - intros fs os vs ovs num w tg bs Hn H0 Htg Hs Hu a b E Hne.
    destruct (app_split _ _ _ _ E) as [(c & -> & Ec)|(c & Hc & -> & ->)].
    2:{ left. destruct (wf_cut _ _ _ (proj1 Htg) Hc) as [H1 H2]. destruct (seam_end false fs os vs ovs a H1 H2). eexists _, _. split; [eassumption|]. right. auto. }
    assert (Hlb : (0 < length b)%nat) by (destruct b; [congruence|cbn; lia]).
    inversion Hs as [? Hwf|? Hlen Hby|? Hlen Hby|l p Hl Hby]; subst.
    + left. eexists _, _. split; [|left; reflexivity]. apply mread_stop; [|discriminate]. eapply rread_unknown_fails; eauto.
      destruct (wf_cut _ _ _ Hwf Hne). apply skip_fails_varint. now apply varint_cut.
    + left. eexists _, _. split; [|left; reflexivity]. apply mread_stop; [|discriminate]. eapply rread_unknown_fails; eauto.
      apply skip_fails_fixed32. rewrite app_length in Hlen. lia.
    + left. eexists _, _. split; [|left; reflexivity]. apply mread_stop; [|discriminate]. eapply rread_unknown_fails; eauto.
      apply skip_fails_fixed64. rewrite app_length in Hlen. lia.
    + match goal with H : _ ++ _ = c ++ b |- _ => destruct (app_split _ _ _ _ H) as [(c' & -> & ->)|(c' & Hc & -> & ->)] end.
      * right. split; [reflexivity|]. eapply mover_here; eauto. rewrite zlen_app. unfold zlen. lia.
      * left. eexists _, _. split; [|left; reflexivity]. apply mread_stop; [|discriminate]. eapply rread_unknown_fails; eauto.
        destruct (wf_cut _ _ _ (proj1 Hl) Hc). apply skip_fails_lendel. now apply varint_cut.
Qed.

Lemma prefix_detected : forall fs os v a b new, let t := EMsg fs os in
  desc_ok t -> wt t v -> clean t v -> mdec fs os (view t v) (a ++ b) new -> ~ mover fs os (view t v) a ->
  forall S (R : rops S) rel, reader_ok R rel -> forall s, rel s a -> forall fuel, (length a < fuel)%nat ->
  exists e v' s', deserialize fuel t S R v s = Done (e, v', s') /\ rel s' [] /\ wt t v' /\ clean t v'
    /\ (e = EndOfBuffer \/ (e = NoErrors /\ seam fs os a)).
Proof.
  intros fs os v a b new t Hd Hw Hc Hm Hno S R rel ok s Hr fuel Hfu.
  destruct (proj1 (proj2 (cut_ok true)) _ _ _ _ _ Hm a b eq_refl) as [(e & m & Hmr & He)|[_ Hov]]; [|contradiction].
  destruct (decode_reads fs os v false false a e m [] Hd Hw Hc Hmr S R rel ok ltac:(discriminate) s Hr fuel Hfu) as (v' & s' & E & Hr' & Hw' & Hc' & _).
  exists e, v', s'. auto 8.
Qed.

(** Of what serialize() writes. *)
Lemma prefix_serialized : forall fs os v v0, let t := EMsg fs os in
  desc_ok t -> wt t v -> zlen (enc t (view t v)) < 2 ^ 32 ->
  wt t v0 -> clean t v0 -> view t v0 = sdefault t ->
  forall cap w c n w', wfix_rel cap w c (Some n) ->
  serialize t v _ (wfix_ops cap) w = Done (NoErrors, w') ->
  exists bytes, wfix_content w' = wfix_content w ++ bytes /\
  forall a b, bytes = a ++ b ->
  forall S (R : rops S) rel, reader_ok R rel -> forall s, rel s a -> forall fuel, (length a < fuel)%nat ->
  exists e v' s', deserialize fuel t S R v0 s = Done (e, v', s') /\ rel s' [] /\ wt t v' /\ clean t v'
    /\ (e = EndOfBuffer \/ (e = NoErrors /\ seam fs os a)).
Proof.
  intros fs os v v0 t Hd Hw Hz Hw0 Hc0 Hv0 cap w c n w' Hr E. exists (enc t (view t v)). split.
  { destruct (serialize_wrote t v Hw Hd Hz _ _ _ _ (wfix_ok cap) w c (Some n) Hr) as (e & s1 & E1 & H); [right; exact I|].
    rewrite E1 in E. injection E as -> ->. destruct H as [(_ & H & _)|([=] & _)].
    destruct Hr as (_ & _ & _ & _ & Hc & _). destruct H as (_ & _ & _ & _ & H & _).
    unfold wfix_content. rewrite <- H, <- Hc. reflexivity. }
  intros a b Eab S R rel ok s Hrel fuel Hfu.
  assert (Hm : mdecu false fs os (view t v0) (a ++ b) (norm t (view t v))).
  { rewrite Hv0, <- Eab. pose proof (enc_decodes false t v Hw Hd Hz) as He. now inversion He. }
  destruct (proj1 (proj2 (cut_ok false)) _ _ _ _ _ Hm a b eq_refl) as [(e & m & Hmr & He)|[[=] _]].
  destruct (decode_reads fs os v0 false false a e m [] Hd Hw0 Hc0 Hmr S R rel ok ltac:(discriminate) s Hrel fuel Hfu) as (v' & s' & E' & Hr' & Hw' & Hc' & _).
  exists e, v', s'. auto 8.
Qed.

(** Without nested messages and packed fields only the inside of a tag is left. *)
Lemma seam_flat fs os a : flat fs os -> seam fs os a ->
  exists rs c, a = concat rs ++ c /\ Forall (record fs os) rs /\ (length c < 5)%nat /\ Forall (fun x => 128 <= x < 256) c.
Proof.
  intros Hf H. induction H as [fs os c Hl Hc|fs os r a Hr Hs IH|fs os num k f o tg l n p Hh|fs os num max sc tg c Hh|fs os num max sc tg l n p Hh].
  - exists [], c. auto.
  - destruct (IH Hf) as (rs & c & -> & H1 & H2). exists (r :: rs), c. split; [cbn; now rewrite app_assoc|]. split; [now constructor|exact H2].
  - apply Hf in Hh. contradiction.
  - apply Hf in Hh. contradiction.
  - apply Hf in Hh. contradiction.
Qed.

Lemma prefix_detected_flat : forall fs os v a b new, let t := EMsg fs os in
  desc_ok t -> wt t v -> clean t v -> flat fs os -> mdec fs os (view t v) (a ++ b) new ->
  ~ mover fs os (view t v) a ->
  forall S (R : rops S) rel, reader_ok R rel -> forall s, rel s a -> forall fuel, (length a < fuel)%nat ->
  exists e v' s', deserialize fuel t S R v s = Done (e, v', s') /\ rel s' [] /\ wt t v' /\ clean t v'
    /\ (e = EndOfBuffer
        \/ (e = NoErrors /\ exists rs c, a = concat rs ++ c /\ Forall (record fs os) rs
            /\ (length c < 5)%nat /\ Forall (fun x => 128 <= x < 256) c)).
Proof.
  intros fs os v a b new t Hd Hw Hc Hfl Hm Hno S R rel ok s Hr fuel Hfu.
  destruct (prefix_detected fs os v a b new Hd Hw Hc Hm Hno S R rel ok s Hr fuel Hfu) as (e & v' & s' & E & H1 & H2 & H3 & H4).
  exists e, v', s'. repeat (split; [assumption|]). destruct H4 as [H4|[H4 H5]]; [now left|]. right. split; [exact H4|]. now apply seam_flat.
Qed.

(* ------------------------------------------------------------------------------------------- *)
(** C26 *)
From Verif Require Import SafetyProps SerProps.

(** The loop after well-formed records. *)
Lemma loop_after fs os fuel0 old pre mid : mdec fs os old pre mid -> desc_ok (EMsg fs os) ->
  forall S (R : rops S) rel, reader_ok R rel -> forall bs v s fuel, good (EMsg fs os) v old -> rel s (pre ++ bs) ->
  (length (pre ++ bs) < fuel0)%nat -> (length (pre ++ bs) < fuel)%nat ->
  exists v1 s1 fuel1, msg_loop fuel0 fuel (dtab fuel0 fs) (dotab fuel0 os) R v s
      = msg_loop fuel0 fuel1 (dtab fuel0 fs) (dotab fuel0 os) R v1 s1
    /\ good (EMsg fs os) v1 mid /\ rel s1 bs /\ (length bs < fuel1)%nat.
Proof.
  intros H Hd S R rel ok. induction H as [|fs os v0 r v1 bs0 v2 Hr Hm IH]; intros bs v s fuel Hg Hrel H0 Hf.
  - exists v, s, fuel. auto.
  - rewrite <- app_assoc in *. pose proof (proj2 (proj2 (dec_reads true)) _ _ _ _ _ Hr false (bs0 ++ bs)) as Hrr.
    destruct (proj1 (proj2 (proj2 (read_suffix true false))) _ _ _ _ _ _ _ Hrr) as (u & Eu & Hu).
    destruct (proj1 (proj2 (proj2 (read_ok true false))) _ _ _ _ _ _ _ Hrr v S R rel ok ltac:(discriminate) s fuel0 Hd Hg Hrel H0)
      as (w & id & s1 & v' & s' & E1 & E2 & Hrel' & Hw' & Hc' & _ & Hv').
    assert (Hlt : (length (bs0 ++ bs) < length (r ++ bs0 ++ bs))%nat).
    { rewrite Eu, (app_length u). destruct u; [congruence|cbn [length]; lia]. }
    destruct fuel as [|fuel]; [lia|]. cbn [msg_loop]. rewrite E1. cbn [bind]. rewrite E2. cbn [bind is_ok].
    apply (IH Hd bs v' s' fuel); auto; try lia. split; [exact Hw'|]. split; [exact Hc'|]. apply Hv'. now left.
Qed.

(** The fixed-size buffer does not move when an advance runs past the end, and its result is ignored:
    the payload of a truncated unknown field is read as records of the message. *)
Lemma cut_unknown : forall fs os v pre vs ovs num tg l n p e new rest, let t := EMsg fs os in
  let bytes := pre ++ tg ++ l ++ p in
  desc_ok t -> wt t v -> clean t v -> mdec fs os (view t v) pre (SvM vs ovs) ->
  ~ In num (field_numbers fs os) -> 0 < num ->
  varint32 tg (num * 8 + wt_code LENDEL) -> varint32 l n -> Forall is_byte bytes -> zlen p < n ->
  zlen (pre ++ tg ++ l) + n < 2 ^ 32 ->
  mread true false fs os (SvM vs ovs) p e new rest ->
  forall fuel, (length bytes < fuel)%nat -> exists v' s',
  deserialize fuel t rfix (rfix_ops (zlen bytes)) v (rfix_of bytes) = Done (e, v', s')
  /\ wt t v' /\ clean t v' /\ view t v' = new.
Proof.
  intros fs os v pre vs ovs num tg l n p e new rest t bytes Hd Hw Hc Hp Hn H0 Htg Hl Hb Hlt Hz Hm fuel Hf.
  assert (Hlen : zlen bytes = zlen (pre ++ tg ++ l) + zlen p) by (unfold bytes; rewrite !zlen_app; lia).
  pose proof (zlen_nonneg p) as Hp0. pose proof (zlen_nonneg (pre ++ tg ++ l)) as Hp1.
  pose proof (at_ok (zlen bytes) bytes ltac:(lia) Hb) as ok. pose proof (rfix_of_at bytes) as Hr.
  unfold t. rewrite deserialize_msg. change bytes with (pre ++ tg ++ l ++ p) in Hr at 3.
  destruct (loop_after fs os fuel _ _ _ Hp Hd rfix (rfix_ops (zlen bytes)) (at_rel bytes) ok (tg ++ l ++ p) v (rfix_of bytes) fuel)
    as (v1 & s1 & fuel1 & E & Hg & Hr1 & Hf1); auto. { unfold good. auto. }
  rewrite E. destruct (DeserializeTag_wf ok _ _ _ num LENDEL Htg ltac:(lia) Hr1) as (s2 & E2 & Hr2).
  destruct fuel1 as [|fuel1]; [lia|]. cbn [msg_loop]. rewrite E2. cbn [bind].
  destruct (good_VM _ _ _ _ _ Hg) as (pres & xs & os' & -> & _). cbn [msg_dispatch].
  unfold field_numbers in Hn. rewrite in_app_iff in Hn. rewrite find_field_none, find_oneof_none by tauto.
  destruct (Z.eqb_spec num 0); [lia|]. cbn [skip_unknown_field]. unfold skip_length_delimited.
  destruct (DeserializeVarint_wf ok 32 _ _ _ (or_introl eq_refl) (proj1 Hl) Hr2) as (s3 & E3 & Hr3). rewrite E3. cbn [bind].
  rewrite (proj2 Hl). cbn [rfix_ops r_advance_n]. unfold rfix_advance_n.
  assert (Er : rf_r s3 + n < 2 ^ 32 /\ rf_w s3 < rf_r s3 + n /\ 0 <= rf_r s3).
  { destruct Hr3 as (Ed & Ew & Hrr & Ep).
    assert (Hsk : zlen (skipn (Z.to_nat (rf_r s3)) bytes) = zlen p) by now rewrite <- Ep.
    rewrite zlen_skipn in Hsk. lia. }
  rewrite u32_small by lia. destruct (Z.leb_spec (rf_r s3 + n) (rf_w s3)); [lia|]. cbn [bind is_ok].
  pose proof (varint32_nonempty _ _ Htg) as Hne. rewrite !app_length in Hf1.
  destruct (proj1 (proj2 (read_ok true false)) _ _ _ _ _ _ _ Hm _ rfix (rfix_ops (zlen bytes)) (at_rel bytes) ok ltac:(discriminate) s3 fuel fuel1 Hd Hg Hr3)
    as (v' & s' & E' & _ & Hw' & Hc' & _ & Hv').
  { destruct tg; [congruence|cbn in Hf1; lia]. }
  { assert (Hz1 : (length p <= length bytes)%nat) by (unfold bytes; rewrite !app_length; lia). lia. }
  exists v', s'. rewrite <- E'. split; [reflexivity|]. auto.
Qed.

(** Unknown fields of the other wire types, and a length that is itself cut. *)
Lemma unknown_cut : forall fs os v pre vs ovs num tg w bs e rest, let t := EMsg fs os in
  desc_ok t -> wt t v -> clean t v -> mdec fs os (view t v) pre (SvM vs ovs) ->
  ~ In num (field_numbers fs os) -> 0 < num ->
  varint32 tg (num * 8 + wt_code w) -> skip_fails w bs e rest ->
  decodes t v (pre ++ tg ++ bs) e (SvM vs ovs) rest.
Proof.
  intros fs os v pre vs ovs num tg w bs e rest t Hd Hw Hc Hp Hn H0 Htg Hs.
  eapply (decodes_after fs os v true); eauto. apply mread_stop; [|now apply skip_fails_err in Hs].
  eapply rread_unknown_fails; eauto.
Qed.

(** Inside a complete nested message the bytes to the end of the nested message are skipped. *)
Lemma nested_unknown_cut : forall fs os v pre vs ovs i num k f o x tg l p tg' num' l' n q x' post new,
  let t := EMsg fs os in let body := p ++ tg' ++ l' ++ q in
  desc_ok t -> wt t v -> clean t v -> mdec fs os (view t v) pre (SvM vs ovs) ->
  nth_error fs i = Some (num, k, EMsg f o) -> k = KPlain \/ k = KOpt -> nth_error vs i = Some x ->
  varint32 tg (num * 8 + wt_code LENDEL) -> varint32 l (zlen body) ->
  mdec f o (field_start k (EMsg f o) x) p x' ->
  ~ In num' (field_numbers f o) -> 0 < num' -> varint32 tg' (num' * 8 + wt_code LENDEL) ->
  varint32 l' n -> zlen q < n ->
  mdec fs os (SvM (upd i (stored k x') vs) ovs) post new ->
  decodes t v (pre ++ tg ++ l ++ body ++ post) NoErrors new [].
Proof.
  intros fs os v pre vs ovs i num k f o x tg l p tg' num' l' n q x' post new t body Hd Hw Hc Hp Hf Hk Hx Htg Hl Hm Hn H0 Htg' Hl' Hlt Hpost.
  eapply (decodes_after fs os v true); eauto. eapply mread_next; [|apply (proj1 (proj2 (dec_reads true))); exact Hpost].
  eapply plain_opt_element; eauto. apply (eread_msg true false f o _ l (zlen body) body NoErrors x' [] post); auto. { now left. }
  rewrite Z.eqb_refl. cbn [orb].
  assert (Hx' : exists a b, x' = SvM a b) by (clear -Hm; induction Hm; eauto). destruct Hx' as (a & b & ->).
  eapply mread_after; [exact Hm|]. apply mread_rec_ok. eapply rread_unknown_rest; eauto.
Qed.

(* ------------------------------------------------------------------------------------------- *)
(** C53 *)

Lemma varint_groups_len k j n : (0 < j <= k)%nat -> 128 ^ (Z.of_nat j - 1) <= n < 128 ^ Z.of_nat j ->
  length (varint_groups k n) = j.
Proof.
  revert j n. induction k as [|k IH]; intros j n Hj Hn; [lia|]. cbn [varint_groups].
  destruct (Z.ltb_spec n 128) as [H|H].
  - destruct j as [|[|j]]; [lia|reflexivity|]. exfalso.
    assert (128 ^ 1 <= 128 ^ (Z.of_nat (S (S j)) - 1)) by (apply Z.pow_le_mono_r; lia). lia.
  - destruct j as [|[|j]]; [lia|cbn in Hn; lia|]. cbn [length]. f_equal. apply IH; [lia|].
    replace (Z.of_nat (S (S j)) - 1) with (Z.succ (Z.of_nat (S j) - 1)) in Hn by lia.
    replace (Z.of_nat (S (S j))) with (Z.succ (Z.of_nat (S j))) in Hn by lia.
    rewrite !Z.pow_succ_r in Hn by lia. set (a := 128 ^ (Z.of_nat (S j) - 1)) in *. set (b := 128 ^ Z.of_nat (S j)) in *.
    clearbody a b. split; [apply Z.div_le_lower_bound; lia|apply Z.div_lt_upper_bound; lia].
Qed.

Lemma int32_bytes num z : 0 < num < 2 ^ 29 -> - 2 ^ 31 <= z < 2 ^ 31 -> z <> 0 ->
  forall cap b c n, wfix_rel cap b c (Some n) -> forall b',
  serialize (one_int32 num) (VM [] [VS z] []) wfix (wfix_ops cap) b = Done (NoErrors, b') ->
  wfix_content b' = wfix_content b ++ tag num VARINT ++ varint (z mod 2 ^ 32).
Proof.
  intros Hn Hz Hz0 cap b c n Hr b' E.
  assert (Ee : enc (one_int32 num) (view (one_int32 num) (VM [] [VS z] [])) = tag num VARINT ++ varint (z mod 2 ^ 32)).
  { cbn. destruct (Z.eqb_spec z 0); [congruence|]. cbn [enc_elem]. now rewrite !app_nil_r. }
  rewrite <- Ee. eapply serialize_is_enc; eauto.
  - cbn. unfold is_u32. repeat split; auto; lia.
  - cbn. repeat split; try lia. repeat constructor; cbn; tauto.
  - fold (one_int32 num). rewrite Ee, zlen_app. unfold tag, varint, zlen.
    assert (Hg : forall k m, (length (varint_groups k m) <= k)%nat).
    { induction k; intros m; cbn [varint_groups]; [cbn; lia|]. destruct (m <? 128); cbn [length]; [lia|]. specialize (IHk (m / 128)). lia. }
    pose proof (Hg 10%nat (num * 8 + wt_code VARINT)). pose proof (Hg 10%nat (z mod 2 ^ 32)). lia.
Qed.

Lemma int32_negative : forall num z, 0 < num < 2 ^ 29 -> - 2 ^ 31 <= z < 0 ->
  forall cap b c n, wfix_rel cap b c (Some n) -> forall b',
  serialize (one_int32 num) (VM [] [VS z] []) wfix (wfix_ops cap) b = Done (NoErrors, b') ->
  wfix_content b' = wfix_content b ++ tag num VARINT ++ varint (z + 2 ^ 32)
  /\ zlen (varint (z + 2 ^ 32)) = 5 /\ zlen (varint (z + 2 ^ 64)) = 10.
Proof.
  intros num z Hn Hz cap b c n Hr b' E. split; [|split].
  - replace (z + 2 ^ 32) with (z mod 2 ^ 32) by lia. eapply int32_bytes; eauto; lia.
  - unfold varint, zlen. rewrite (varint_groups_len 10 5); lia.
  - unfold varint, zlen. rewrite (varint_groups_len 10 10); lia.
Qed.

Lemma int32_nonnegative : forall num z, 0 < num < 2 ^ 29 -> 0 < z < 2 ^ 31 ->
  forall cap b c n, wfix_rel cap b c (Some n) -> forall b',
  serialize (one_int32 num) (VM [] [VS z] []) wfix (wfix_ops cap) b = Done (NoErrors, b') ->
  wfix_content b' = wfix_content b ++ tag num VARINT ++ varint z.
Proof.
  intros num z Hn Hz cap b c n Hr b' E.
  pose proof (int32_bytes num z Hn ltac:(lia) ltac:(lia) cap b c n Hr b' E) as H. now rewrite Z.mod_small in H by lia.
Qed.

(* ------------------------------------------------------------------------------------------- *)
(** C54: the outcome depends on the bytes and on what the getters showed before, not on the buffer or
    on hidden parts of the object. *)
Lemma same_outcome : forall fs os v1 v2 bs, let t := EMsg fs os in
  desc_ok t -> wt t v1 -> clean t v1 -> wt t v2 -> clean t v2 -> view t v1 = view t v2 ->
  Forall is_byte bs -> ~ mover fs os (view t v1) bs ->
  forall S1 (R1 : rops S1) rel1 S2 (R2 : rops S2) rel2, reader_ok R1 rel1 -> reader_ok R2 rel2 ->
  forall s1 s2, rel1 s1 bs -> rel2 s2 bs -> forall fuel1 fuel2, (length bs < fuel1)%nat -> (length bs < fuel2)%nat ->
  exists e v1' s1' v2' s2' rest, deserialize fuel1 t S1 R1 v1 s1 = Done (e, v1', s1')
    /\ deserialize fuel2 t S2 R2 v2 s2 = Done (e, v2', s2') /\ rel1 s1' rest /\ rel2 s2' rest
    /\ (e = NoErrors -> rest = [] /\ view t v1' = view t v2').
Proof.
  intros fs os v1 v2 bs t Hd Hw1 Hc1 Hw2 Hc2 Ev Hb Hno S1 R1 rel1 S2 R2 rel2 ok1 ok2 s1 s2 Hr1 Hr2 fuel1 fuel2 Hf1 Hf2.
  destruct (read_total false fs os v1 bs Hd Hw1 Hc1 Hb) as [(e & new & rest & H)|[_ H]]; [|contradiction].
  pose proof H as H'. fold t in H'. rewrite Ev in H'.
  destruct (decode_reads fs os v1 false false bs e new rest Hd Hw1 Hc1 H S1 R1 rel1 ok1 ltac:(discriminate) s1 Hr1 fuel1 Hf1)
    as (v1' & s1' & E1 & Hr1' & _ & _ & _ & Hv1).
  destruct (decode_reads fs os v2 false false bs e new rest Hd Hw2 Hc2 H' S2 R2 rel2 ok2 ltac:(discriminate) s2 Hr2 fuel2 Hf2)
    as (v2' & s2' & E2 & Hr2' & _ & _ & _ & Hv2).
  exists e, v1', s1', v2', s2', rest. do 4 (split; [assumption|]). intros He. split; [eapply mread_ok_end; eauto|].
  fold t in Hv1, Hv2. rewrite Hv1, Hv2; auto.
Qed.

(** The same for two buffers that know where their bytes end, without exception. *)
Lemma same_outcome_bounded : forall fs os v1 v2 bs, let t := EMsg fs os in
  desc_ok t -> wt t v1 -> clean t v1 -> wt t v2 -> clean t v2 -> view t v1 = view t v2 -> Forall is_byte bs ->
  forall S1 (R1 : rops S1) rel1 S2 (R2 : rops S2) rel2, reader_ok R1 rel1 -> reader_ok R2 rel2 ->
  reader_bounded R1 rel1 -> reader_bounded R2 rel2 ->
  forall s1 s2, rel1 s1 bs -> rel2 s2 bs -> forall fuel1 fuel2, (length bs < fuel1)%nat -> (length bs < fuel2)%nat ->
  exists e v1' s1' v2' s2' rest, deserialize fuel1 t S1 R1 v1 s1 = Done (e, v1', s1')
    /\ deserialize fuel2 t S2 R2 v2 s2 = Done (e, v2', s2') /\ rel1 s1' rest /\ rel2 s2' rest
    /\ (e = NoErrors -> rest = [] /\ view t v1' = view t v2').
Proof.
  intros fs os v1 v2 bs t Hd Hw1 Hc1 Hw2 Hc2 Ev Hb S1 R1 rel1 S2 R2 rel2 ok1 ok2 bd1 bd2 s1 s2 Hr1 Hr2 fuel1 fuel2 Hf1 Hf2.
  destruct (read_total true fs os v1 bs Hd Hw1 Hc1 Hb) as [(e & new & rest & H)|[H _]]; [|discriminate].
  pose proof H as H'. fold t in H'. rewrite Ev in H'.
  destruct (decode_reads fs os v1 false true bs e new rest Hd Hw1 Hc1 H S1 R1 rel1 ok1 (fun _ => bd1) s1 Hr1 fuel1 Hf1)
    as (v1' & s1' & E1 & Hr1' & _ & _ & _ & Hv1).
  destruct (decode_reads fs os v2 false true bs e new rest Hd Hw2 Hc2 H' S2 R2 rel2 ok2 (fun _ => bd2) s2 Hr2 fuel2 Hf2)
    as (v2' & s2' & E2 & Hr2' & _ & _ & _ & Hv2).
  exists e, v1', s1', v2', s2', rest. do 4 (split; [assumption|]). intros He. split; [eapply mread_ok_end; eauto|].
  fold t in Hv1, Hv2. rewrite Hv1, Hv2; auto.
Qed.

(** C54 is false where [mover] holds. *)
Lemma two_outcomes : forall fs os v pre vs ovs num tg l n p e new rest, let t := EMsg fs os in
  let bytes := pre ++ tg ++ l ++ p in
  desc_ok t -> wt t v -> clean t v -> mdec fs os (view t v) pre (SvM vs ovs) ->
  ~ In num (field_numbers fs os) -> 0 < num ->
  varint32 tg (num * 8 + wt_code LENDEL) -> varint32 l n -> Forall is_byte bytes -> zlen p < n ->
  zlen (pre ++ tg ++ l) + n < 2 ^ 32 ->
  mread true false fs os (SvM vs ovs) p e new rest ->
  forall fuel, (length bytes < fuel)%nat ->
  (exists v' s', deserialize fuel t rfix (rfix_ops (zlen bytes)) v (rfix_of bytes) = Done (e, v', s') /\ view t v' = new)
  /\ (forall S (R : rops S) rel, reader_ok R rel -> reader_bounded R rel -> forall s, rel s bytes ->
      exists v' s', deserialize fuel t S R v s = Done (NoErrors, v', s') /\ view t v' = SvM vs ovs).
Proof.
  intros fs os v pre vs ovs num tg l n p e new rest t bytes Hd Hw Hc Hp Hn H0 Htg Hl Hb Hlt Hz Hm fuel Hf. split.
  - destruct (cut_unknown fs os v pre vs ovs num tg l n p e new rest Hd Hw Hc Hp Hn H0 Htg Hl Hb Hlt Hz Hm fuel Hf)
      as (v' & s' & E & _ & _ & Ev). eauto.
  - intros S R rel ok Hbd s Hr.
    assert (Hread : mread true true fs os (view t v) bytes NoErrors (SvM vs ovs) []).
    { apply (mread_after true true _ _ _ _ _ Hp). eapply mread_next.
      - apply (rread_unknown_rest true true fs os vs ovs num tg l n p); auto.
      - apply mread_end. apply varint_cut; [cbn; lia|constructor]. }
    destruct (decode_reads fs os v true true bytes NoErrors (SvM vs ovs) [] Hd Hw Hc Hread S R rel ok (fun _ => Hbd) s Hr fuel Hf)
      as (v' & s' & E & _ & _ & _ & _ & Hv). exists v', s'. split; [exact E|]. apply Hv. auto.
Qed.

(** C52 is false there as well: the payload of the record that is cut off changes many fields. *)
Lemma cut_changes_many : forall fs os v pre vs ovs num tg l n p e new rest, let t := EMsg fs os in
  let bytes := pre ++ tg ++ l ++ p in
  desc_ok t -> wt t v -> clean t v -> mdec fs os (view t v) pre (SvM vs ovs) ->
  ~ In num (field_numbers fs os) -> 0 < num ->
  varint32 tg (num * 8 + wt_code LENDEL) -> varint32 l n -> Forall is_byte bytes -> zlen p < n ->
  zlen (pre ++ tg ++ l) + n < 2 ^ 32 ->
  mread true false fs os (SvM vs ovs) p e new rest -> ~ one_place (SvM vs ovs) new ->
  forall fuel, (length bytes < fuel)%nat -> exists v' s',
  deserialize fuel t rfix (rfix_ops (zlen bytes)) v (rfix_of bytes) = Done (e, v', s')
  /\ ~ one_place (SvM vs ovs) (view t v').
Proof.
  intros fs os v pre vs ovs num tg l n p e new rest t bytes Hd Hw Hc Hp Hn H0 Htg Hl Hb Hlt Hz Hm Hone fuel Hf.
  destruct (cut_unknown fs os v pre vs ovs num tg l n p e new rest Hd Hw Hc Hp Hn H0 Htg Hl Hb Hlt Hz Hm fuel Hf)
    as (v' & s' & E & _ & _ & Ev). exists v', s'. split; [exact E|]. fold t in Ev. now rewrite Ev.
Qed.

(** C38 for buffers that know where their bytes end. *)
Lemma oneof_malformed_bounded : forall fs os v vs ovs j ms num ty o tg bs e x rest, let t := EMsg fs os in
  desc_ok t -> wt t v -> clean t v -> view t v = SvM vs ovs ->
  nth_error os j = Some ms -> lookup ms num = Some ty -> nth_error ovs j = Some o ->
  varint32 tg (num * 8 + wt_code (elem_wiretype ty)) ->
  eread true true ty (member_start num ty o) bs e x rest -> e <> NoErrors ->
  forall S (R : rops S) rel, reader_ok R rel -> reader_bounded R rel -> forall s, rel s (tg ++ bs) ->
  forall fuel, (length (tg ++ bs) < fuel)%nat ->
  exists v' s', deserialize fuel t S R v s = Done (e, v', s') /\ view t v' = SvM vs (upd j (0, SvNone) ovs).
Proof.
  intros fs os v vs ovs j ms num ty o tg bs e x rest t Hd Hw Hc Ev Hj Hl Ho Htg Hr He S R rel ok Hbd s Hs fuel Hf.
  assert (Hread : mread true true fs os (view t v) (tg ++ bs) e (SvM vs (upd j (0, SvNone) ovs)) rest).
  { rewrite Ev. apply mread_stop; [|exact He].
    pose proof (rread_oneof true true fs os vs ovs j ms num ty o tg bs e x rest Hj Hl Ho Htg Hr) as H.
    destruct e; try exact H. congruence. }
  destruct (decode_reads fs os v true true (tg ++ bs) e _ rest Hd Hw Hc Hread S R rel ok (fun _ => Hbd) s Hs fuel Hf)
    as (v' & s' & E & _ & _ & _ & _ & Hv). exists v', s'. split; [exact E|]. apply Hv. auto.
Qed.
