(** What a receiver with another version of the message type reads. *)
From Verif Require Import Base Buffers Wire Schema Fields Message Spec Contracts BitLemmas
  ReadProofs ScalarProofs BufferProofs Struct SerProofs Tables DecodeProofs RoundTrip DecodeProps SerProps SpecRead ReadAny ReadTotal MalformedProps
  SpecRetype RetypeProofs SpecVersions.
From Coq Require Import ZifyBool ZifyNat ZifyN.
Ltac Zify.zify_post_hook ::= Z.div_mod_to_equations.

(** Encodings are byte strings. *)
Lemma varint32_bytes bs n : varint32 bs n -> Forall is_byte bs.
Proof. intros [H _]. eapply varint_wf_bytes; eauto. Qed.
Lemma packed_dec_bytes sc p zs : packed_dec sc p zs -> Forall is_byte p.
Proof. induction 1; [constructor|]. apply Forall_app. split; [eapply scalar_dec_bytes; eauto|auto]. Qed.
Lemma body_bytes t p bs : body t p bs -> Forall is_byte p -> Forall is_byte bs.
Proof.
  destruct t; cbn [body]; [intros ->; auto|intros (l & Hl & ->) H; apply Forall_app; split; [eapply varint32_bytes; eauto|auto]..].
Qed.
Lemma skippable_bytes w r : skippable w r -> Forall is_byte r.
Proof. destruct 1; auto; [eapply varint_wf_bytes; eauto|]. apply Forall_app. split; [eapply varint32_bytes; eauto|auto]. Qed.
Lemma dec_bytes :
  (forall t old p new, edec t old p new -> Forall is_byte p)
  /\ (forall fs os old bs new, mdec fs os old bs new -> Forall is_byte bs)
  /\ (forall fs os old r new, rdec fs os old r new -> Forall is_byte r).
Proof.
  apply dec_ind; intros; auto; repeat match goal with
    | |- Forall _ (_ ++ _) => apply Forall_app; split
    | H : varint32 ?l _ |- Forall _ ?l => eapply varint32_bytes; eauto
    | H : body _ _ ?b |- Forall _ ?b => eapply body_bytes; eauto
    | H : packed_dec _ ?p _ |- Forall _ ?p => eapply packed_dec_bytes; eauto
    | H : skippable _ ?p |- Forall _ ?p => eapply skippable_bytes; eauto
    end; auto.
  eapply scalar_dec_bytes; eauto.
Qed.
Lemma enc_bytes t v : wt t v -> desc_ok t -> zlen (enc t (view t v)) < 2 ^ 32 -> Forall is_byte (enc t (view t v)).
Proof. intros Hw Hd Hz. eapply (proj1 dec_bytes). exact (enc_decodes true t v Hw Hd Hz). Qed.

(** The body of the record of an element, and that it can be skipped. *)
Definition enc_rec (t : ety) (p : list Z) : list Z := match t with EScalar _ => p | _ => delimited p end.
Lemma scalar_skippable sc z : scalar_range sc z -> skippable (scalar_wiretype sc) (scalar_enc sc z).
Proof.
  intros Hr. pose proof (varint_wf64) as V.
  destruct sc; cbn [scalar_wiretype scalar_enc scalar_range] in *;
    first [apply skip_fixed32; [apply le_length|apply le_bytes]|apply skip_fixed64; [apply le_length|apply le_bytes]|apply skip_varint; apply V].
  all: unfold zigzag; repeat match goal with |- context [if ?b then _ else _] => destruct b eqn:? end; lia.
Qed.
Lemma elem_skippable t v : wt t v -> desc_ok t -> zlen (enc t (view t v)) < 2 ^ 32 ->
  skippable (elem_wiretype t) (enc_rec t (enc t (view t v))).
Proof.
  intros Hw Hd Hz. pose proof (enc_bytes t v Hw Hd Hz). pose proof (zlen_nonneg (enc t (view t v))).
  destruct t; cbn [elem_wiretype enc_rec]; try (apply skip_lendel; [apply varint_varint32; lia|assumption]).
  destruct v as [z| | | |]; try contradiction. cbn [view enc]. now apply scalar_skippable.
Qed.

(** Default values. *)
Lemma norm_field_default k t : norm t (sdefault t) = sdefault t -> norm_field k t (norm t) (sdefault_field k (sdefault t)) = sdefault_field k (sdefault t).
Proof.
  intros H. destruct k; cbn [sdefault_field norm_field]; auto. destruct t as [sc| |]; cbn [sdefault norm_field].
  - destruct (is_zero sc 0); reflexivity.
  - reflexivity.
  - exact H.
Qed.
Lemma norm_default t : norm t (sdefault t) = sdefault t.
Proof.
  induction t as [sc|st max|fs os Hf Ho] using ety_ind'; [reflexivity..|]. rewrite sdefault_tab, norm_tab. f_equal.
  - clear Ho. induction Hf as [|[[num k] t] fs Ht Hf IH]; [reflexivity|]. unfold ntab, sdtab in *. cbn [map norm_fields]. rewrite norm_field_default by exact Ht.
    f_equal. exact IH.
  - clear Hf Ho. induction os as [|ms os IH]; [reflexivity|]. unfold notab in *. cbn [map norm_oneofs]. f_equal; [|exact IH].
    unfold norm_oneof. cbn [fst snd]. destruct (lookup _ 0); reflexivity.
Qed.
Lemma fits_field_default k t : fits t (sdefault t) = true -> match k with KRep max => 0 <= max | _ => True end ->
  fits_field k (fits t) (sdefault_field k (sdefault t)) = true.
Proof. intros H Hm. destruct k; cbn [sdefault_field fits_field]; auto. unfold zlen. cbn. lia. Qed.
Lemma fits_default t : desc_ok t -> fits t (sdefault t) = true.
Proof.
  induction t as [sc|st max|fs os Hf Ho] using ety_ind'; intros Hd; [reflexivity|cbn in *; unfold capacity_ok in Hd; cbn; lia|].
  destruct Hd as (_ & _ & Hd & _). cbn [fits sdefault]. apply andb_true_intro. split.
  - clear Ho os. induction Hf as [|[[num k] t] fs Ht Hf IH]; [reflexivity|]. cbn [all] in Hd. destruct Hd as [[Hdt Hc] Hd].
    cbn [map fits_fields]. rewrite IH by exact Hd. rewrite fits_field_default; auto. destruct k; auto. unfold capacity_ok in Hc. lia.
  - clear. induction os as [|ms os IH]; [reflexivity|]. cbn [map fits_oneofs]. rewrite IH. unfold fits_oneof. cbn [fst snd].
    destruct (lookup _ 0); reflexivity.
Qed.

(** Numbers. *)
Definition rnum (r : row) : Z := fst (fst (fst r)).
Lemma sent_app rs1 rs2 n : sent (rs1 ++ rs2) n = match sent rs1 n with Some x => Some x | None => sent rs2 n end.
Proof. induction rs1 as [|[[[m j] u] w] rs1 IH]; [reflexivity|]. cbn [app sent]. destruct (m =? n); [reflexivity|apply IH]. Qed.
Lemma sent_none rs n : ~ In n (map rnum rs) -> sent rs n = None.
Proof.
  induction rs as [|[[[m j] u] w] rs IH]; intros H; cbn [sent]; auto. cbn [map In rnum fst] in H.
  destruct (Z.eqb_spec m n); [tauto|]. apply IH. tauto.
Qed.
Lemma sent_in rs n k t v : sent rs n = Some (k, t, v) -> In (n, k, t, v) rs.
Proof.
  induction rs as [|[[[m j] u] w] rs IH]; cbn [sent]; [discriminate|]. destruct (Z.eqb_spec m n) as [->|]; [intros H; injection H as -> -> ->; now left|].
  intros H. right. auto.
Qed.
Lemma sent_member_app rs1 rs2 among : sent_member (rs1 ++ rs2) among
  = match sent_member rs1 among with Some x => Some x | None => sent_member rs2 among end.
Proof.
  induction rs1 as [|[[[m j] u] w] rs1 IH]; [reflexivity|]. cbn [app sent_member]. destruct (given j w); auto. destruct (existsb _ _); auto.
Qed.
Lemma existsb_In n l : existsb (Z.eqb n) l = true <-> In n l.
Proof.
  rewrite existsb_exists. split; [intros (x & H & E); apply Z.eqb_eq in E; now subst|]. intros H. exists n. split; [exact H|apply Z.eqb_refl].
Qed.
Lemma sent_member_in rs among n t x : sent_member rs among = Some (n, t, x) -> exists k v, In (n, k, t, v) rs /\ given k v = Some x /\ In n among.
Proof.
  induction rs as [|[[[m j] u] w] rs IH]; cbn [sent_member]; [discriminate|]. intros H.
  assert (Hrec : sent_member rs among = Some (n, t, x) -> exists k v, In (n, k, t, v) ((m, j, u, w) :: rs) /\ given k v = Some x /\ In n among).
  { intros H'. destruct (IH H') as (k & v & Hi & H0). exists k, v. split; [now right|exact H0]. }
  destruct (given j w) as [y|] eqn:Eg; auto. destruct (existsb (Z.eqb m) among) eqn:Ee; auto. injection H as -> -> ->.
  exists j, w. split; [now left|]. split; [exact Eg|]. now apply existsb_In.
Qed.
Lemma NoDup_field (fs : list fdesc) i j n k t k' t' : NoDup (map (fun '(m, _, _) => m) fs) ->
  nth_error fs i = Some (n, k, t) -> nth_error fs j = Some (n, k', t') -> i = j.
Proof.
  intros H Hi Hj. eapply NoDup_nth_error; eauto.
  - rewrite map_length. eapply nth_error_lt; eauto.
  - rewrite !nth_error_map, Hi, Hj. reflexivity.
Qed.
Lemma nth_error_ext {A} (l l' : list A) : (forall i, nth_error l i = nth_error l' i) -> l = l'.
Proof.
  revert l'. induction l as [|x l IH]; intros [|y l'] H; [reflexivity|discriminate (H 0%nat)|discriminate (H 0%nat)|].
  pose proof (H 0%nat) as H0. injection H0 as ->. f_equal. apply IH. intros i. exact (H (S i)).
Qed.
Lemma NoDup_fields fs os : desc_ok (EMsg fs os) -> NoDup (map (fun '(m, _, _) => m) fs).
Proof.
  intros (H & _). unfold field_numbers in H. revert H. generalize (flat_map (map (@fst Z ety)) os) as l.
  induction (map (fun '(m, _, _) => m) fs) as [|x l IH]; intros l' H; [constructor|]. cbn [app] in H. inversion H; subst.
  constructor; [rewrite in_app_iff in *; tauto|eauto].
Qed.

(** ** Outcomes: success with a value, or ARRAY_FULL. *)
Definition outcome (ok : bool) (P : err -> sval -> list Z -> Prop) (new : sval) (rest : list Z) : Prop :=
  if ok then P NoErrors new rest else exists n r, P ArrayFull n r.

Section Receiver.
Variable bd : bool.
Local Notation eread := (eread false bd).
Local Notation rread := (rread false bd).
Local Notation fread := (fread false bd).

(** Reading [bs] takes the message value [old] to [mid], or stops with ARRAY_FULL. *)
Definition goes (fs os : list _) (ok : bool) (old : sval) (bs : list Z) (mid : sval) : Prop := forall tail,
  if ok then forall e new rest, mread false bd fs os mid tail e new rest -> mread false bd fs os old (bs ++ tail) e new rest
  else exists new rest, mread false bd fs os old (bs ++ tail) ArrayFull new rest.

Lemma goes_nil fs os v : goes fs os true v [] v.
Proof. intros tail e new rest H. exact H. Qed.
Lemma goes_app fs os ok1 ok2 v1 v2 v3 a b : goes fs os ok1 v1 a v2 -> (ok1 = true -> goes fs os ok2 v2 b v3) -> goes fs os (ok1 && ok2) v1 (a ++ b) v3.
Proof.
  intros H1 H2 tail. rewrite <- app_assoc. specialize (H1 (b ++ tail)). destruct ok1; cbn [andb].
  - specialize (H2 eq_refl tail). destruct ok2.
    + intros e new rest H. apply H1, H2, H.
    + destruct H2 as (new & rest & H). exists new, rest. apply H1, H.
  - exact H1.
Qed.
Lemma goes_record fs os ok old r mid : (forall tail, outcome ok (rread fs os old (r ++ tail)) mid tail) -> goes fs os ok old r mid.
Proof.
  intros H tail. specialize (H tail). destruct ok; cbn [outcome] in H.
  - intros e new rest Hm. eapply mread_next; eauto.
  - destruct H as (n & x & H). exists n, x. apply mread_stop; [exact H|discriminate].
Qed.

(** Elements. *)
Definition msg_ok (t : ety) : Prop := forall v t', version t t' -> wt t v -> desc_ok t -> desc_ok t' -> zlen (enc t (view t v)) < 2 ^ 32 ->
  forall fs' os', t' = EMsg fs' os' ->
  outcome (fits t' (carry t t' (norm t (view t v)))) (mread false true fs' os' (sdefault t') (enc t (view t v))) (carry t t' (norm t (view t v))) [].

Lemma bytes_view st max v : wt (EBytes st max) v -> exists b, view (EBytes st max) v = SvB b /\ Forall is_byte b /\ zlen b <= max.
Proof.
  destruct v as [| |len data| |]; try contradiction. cbn. intros (Hl & Hz & Hb). apply all_Forall in Hb. eexists. split; [reflexivity|].
  split; [now apply Forall_firstn|]. rewrite zlen_firstn. lia.
Qed.

Lemma elem_read t v t' : msg_ok t -> version t t' -> wt t v -> desc_ok t -> desc_ok t' -> zlen (enc t (view t v)) < 2 ^ 32 ->
  forall tail, outcome (fits t' (carry t t' (norm t (view t v)))) (eread t' (sdefault t') (enc_rec t (enc t (view t v)) ++ tail))
    (carry t t' (norm t (view t v))) tail.
Proof.
  intros Hm Hver Hw Hd Hd' Hz tail. pose proof (zlen_nonneg (enc t (view t v))).
  destruct Hver as [sc sc' Hkept|st max st' max'|fs os fs' os' V1 V2].
  - destruct v as [z| | | |]; try contradiction. cbn. constructor. constructor. now apply always_kept_ok.
  - destruct (bytes_view _ _ _ Hw) as (b & E & Hb & Hlen). rewrite E in *. cbn [carry enc enc_rec fits norm] in *. unfold delimited. rewrite <- app_assoc.
    unfold outcome. destruct (Z.leb_spec (zlen b) max').
    + apply eread_bytes; [apply varint_varint32; lia|assumption].
    + do 2 eexists. eapply eread_too_long; [apply varint_varint32; lia|assumption].
  - assert (Hver : version (EMsg fs os) (EMsg fs' os')) by (constructor; auto).
    specialize (Hm v _ Hver Hw Hd Hd' Hz fs' os' eq_refl). remember (enc (EMsg fs os) (view (EMsg fs os) v)) as p eqn:Ep.
    cbn [enc_rec]. unfold delimited. rewrite <- app_assoc. assert (Hl : varint32 (varint (zlen p)) (zlen p)) by (apply varint_varint32; lia).
    assert (Hb : bd || (zlen p =? zlen p) = true) by (rewrite Z.eqb_refl; now destruct bd).
    remember (carry _ _ _) as w eqn:Ew. unfold outcome in *. destruct (fits _ w).
    + eapply (eread_msg false bd fs' os' _ _ (zlen p) p NoErrors _ [] tail); eauto; [now left|]. rewrite Hb. exact Hm.
    + destruct Hm as (n & r & Hm). exists n, (r ++ tail). eapply (eread_msg false bd fs' os' _ _ (zlen p) p ArrayFull n r tail); eauto; [now left|].
      rewrite Hb. exact Hm.
Qed.

Lemma version_wiretype t t' : version t t' -> elem_wiretype t = elem_wiretype t'.
Proof. destruct 1 as [sc sc' H| |]; [destruct sc, sc'; try discriminate; reflexivity|reflexivity..]. Qed.
Lemma enc_elem_rec num t p : enc_elem num t p = tag num (elem_wiretype t) ++ enc_rec t p.
Proof. destruct t; reflexivity. Qed.

(** Elements of repeated fields. *)
Lemma elem_fread t v t' max old : is_packed t = false -> msg_ok t -> version t t' -> wt t v -> desc_ok t -> desc_ok t' -> zlen (enc t (view t v)) < 2 ^ 32 ->
  zlen old < max ->
  forall tail, outcome (fits t' (carry t t' (norm t (view t v)))) (fread (KRep max) t' LENDEL (SvR old) (enc_rec t (enc t (view t v)) ++ tail))
    (SvR (old ++ [carry t t' (norm t (view t v))])) tail.
Proof.
  intros Hpk Hm Hver Hw Hd Hd' Hz Hmax tail. pose proof (zlen_nonneg (enc t (view t v))).
  destruct Hver as [sc sc' Hkept|st cap st' cap'|fs os fs' os' V1 V2].
  - discriminate.
  - destruct (bytes_view _ _ _ Hw) as (b & E & Hb & Hlen). rewrite E in *. cbn [carry enc enc_rec fits norm] in *. unfold delimited. rewrite <- app_assoc.
    unfold outcome. destruct (Z.leb_spec (zlen b) cap').
    + apply fread_rep_bytes; [assumption|apply varint_varint32; lia|assumption].
    + do 2 eexists. eapply (fread_rep_bytes_too_long false bd max st' cap' old []); [reflexivity|assumption|apply varint_varint32; lia|assumption].
  - assert (Hver : version (EMsg fs os) (EMsg fs' os')) by (constructor; auto).
    specialize (Hm v _ Hver Hw Hd Hd' Hz fs' os' eq_refl). remember (enc (EMsg fs os) (view (EMsg fs os) v)) as p eqn:Ep.
    cbn [enc_rec]. unfold delimited. rewrite <- app_assoc. assert (Hl : varint32 (varint (zlen p)) (zlen p)) by (apply varint_varint32; lia).
    assert (Hb : bd || (zlen p =? zlen p) = true) by (rewrite Z.eqb_refl; now destruct bd).
    remember (carry _ _ _) as w eqn:Ew. unfold outcome in *. destruct (fits _ w).
    + eapply (fread_rep_msg false bd max fs' os' old _ (zlen p) p NoErrors _ [] tail); eauto; [now left|]. rewrite Hb. exact Hm.
    + destruct Hm as (n & r & Hm). exists (SvR (old ++ [n])), (r ++ tail).
      eapply (fread_rep_msg false bd max fs' os' old _ (zlen p) p ArrayFull n r tail); eauto; [now left|]. rewrite Hb. exact Hm.
Qed.

Lemma upd_upd {A} i (x y : A) l : upd i y (upd i x l) = upd i y l.
Proof. revert i. induction l as [|a l IH]; intros [|i]; cbn; congruence. Qed.

Lemma unpacked_goes t t' num max fs' os' i ovs : is_packed t = false -> msg_ok t -> version t t' -> desc_ok t -> desc_ok t' -> 1 <= num < 2 ^ 29 ->
  nth_error fs' i = Some (num, KRep max, t') ->
  forall l old vals, Forall (wt t) l -> nth_error vals i = Some (SvR old) -> zlen old <= max ->
  zlen (flat_map (fun x => enc_elem num t (enc t x)) (map (view t) l)) < 2 ^ 32 ->
  goes fs' os' ((zlen old + zlen l <=? max) && forallb (fits t') (map (carry t t') (map (norm t) (map (view t) l))))
    (SvM vals ovs) (flat_map (fun x => enc_elem num t (enc t x)) (map (view t) l))
    (SvM (upd i (SvR (old ++ map (carry t t') (map (norm t) (map (view t) l)))) vals) ovs).
Proof.
  intros Hpk Hm Hver Hd Hd' Hnum Hf. induction l as [|x l IH]; intros old vals Hw Ho Hmax Hz; cbn [map flat_map forallb].
  - rewrite app_nil_r, upd_same by exact Ho. replace (zlen old + zlen (@nil value) <=? max) with true by (rewrite zlen_nil; lia). apply goes_nil.
  - inversion Hw as [|? ? Hx Hl]; subst. cbn [map flat_map] in Hz. rewrite zlen_app in Hz. rewrite zlen_cons.
    pose proof (zlen_enc_elem num t (enc t (view t x))). pose proof (zlen_nonneg (enc_elem num t (enc t (view t x)))). pose proof (zlen_nonneg l).
    pose proof (zlen_nonneg (flat_map (fun x => enc_elem num t (enc t x)) (map (view t) l))). pose proof (zlen_nonneg (enc t (view t x))).
    assert (Hwl : elem_wiretype t = LENDEL) by (destruct t; [discriminate|reflexivity..]).
    assert (Hlt : (i < length vals)%nat) by (eapply nth_error_lt; eauto).
    destruct (Z.eq_dec (zlen old) max) as [Hfull|Hroom].
    + replace (zlen old + (1 + zlen l) <=? max) with false by lia. cbn [andb]. intros tail. do 2 eexists. apply mread_stop; [|discriminate].
      rewrite enc_elem_rec, Hwl, <- !app_assoc. eapply rread_field; eauto; [now apply tag_varint32|]. apply fread_rep_full; [|exact Hfull].
      destruct Hver; [discriminate|reflexivity..].
    + set (y := carry t t' (norm t (view t x))).
      replace ((zlen old + (1 + zlen l) <=? max) && (fits t' y && forallb (fits t') (map (carry t t') (map (norm t) (map (view t) l)))))
        with (fits t' y && ((zlen (old ++ [y]) + zlen l <=? max) && forallb (fits t') (map (carry t t') (map (norm t) (map (view t) l)))))
        by (rewrite zlen_app, zlen_cons, zlen_nil; replace (zlen old + (1 + 0) + zlen l) with (zlen old + (1 + zlen l)) by lia;
            destruct (fits t' y), (zlen old + (1 + zlen l) <=? max); reflexivity).
      apply goes_app with (v2 := SvM (upd i (SvR (old ++ [y])) vals) ovs).
      * apply goes_record. intros tail. rewrite enc_elem_rec, Hwl, <- app_assoc.
        pose proof (elem_fread t x t' max old Hpk Hm Hver Hx Hd Hd' ltac:(lia) ltac:(lia) tail) as H4. fold y in H4.
        unfold outcome in *. destruct (fits t' y).
        -- eapply rread_field; eauto. now apply tag_varint32.
        -- destruct H4 as (n & r & H4). do 2 eexists. eapply rread_field; eauto. now apply tag_varint32.
      * intros _. replace (upd i (SvR (old ++ y :: map (carry t t') (map (norm t) (map (view t) l)))) vals)
          with (upd i (SvR ((old ++ [y]) ++ map (carry t t') (map (norm t) (map (view t) l)))) (upd i (SvR (old ++ [y])) vals))
          by (rewrite upd_upd, <- app_assoc; reflexivity).
        apply IH; auto; [now apply nth_error_upd_same| |lia]. rewrite zlen_app, zlen_cons, zlen_nil. lia.
Qed.

Lemma packed_split sc sc' l (n : nat) : always_kept sc sc' = true -> Forall (wt (EScalar sc)) l -> (n < length l)%nat ->
  exists q zs c z r, flat_map (enc (EScalar sc)) (map (view (EScalar sc)) l) = q ++ c ++ r /\ packed_reads sc' q zs /\ length zs = n /\ scalar_reads sc' c z.
Proof.
  intros Hk. revert n. induction l as [|x l IH]; intros n Hw Hn; [cbn in Hn; lia|]. inversion Hw as [|? ? Hx Hl]; subst.
  destruct x as [z| | | |]; try contradiction. cbn [map flat_map]. change (enc (EScalar sc) (view (EScalar sc) (VS z))) with (scalar_enc sc z).
  assert (Hr : scalar_reads sc' (scalar_enc sc z) (cast sc' z)) by (constructor; now apply always_kept_ok).
  destruct n as [|n].
  - exists [], [], (scalar_enc sc z), (cast sc' z). eexists. split; [reflexivity|]. repeat split; [constructor|exact Hr].
  - cbn [length] in Hn. destruct (IH n Hl ltac:(lia)) as (q & zs & c & z' & r & -> & Hq & Hz & Hc).
    exists (scalar_enc sc z ++ q), (cast sc' z :: zs), c, z', r. rewrite <- app_assoc. split; [reflexivity|]. split; [now constructor|]. cbn [length]. auto.
Qed.

Lemma packed_cast sc sc' l : always_kept sc sc' = true -> Forall (wt (EScalar sc)) l ->
  packed_dec sc' (flat_map (enc (EScalar sc)) (map (view (EScalar sc)) l)) (map (fun v => match v with VS z => cast sc' z | _ => 0 end) l)
  /\ map SvZ (map (fun v => match v with VS z => cast sc' z | _ => 0 end) l)
     = map (carry (EScalar sc) (EScalar sc')) (map (norm (EScalar sc)) (map (view (EScalar sc)) l)).
Proof.
  intros Hk. induction 1 as [|v l Hv Hl [IH1 IH2]]; cbn [map flat_map]; [split; [constructor|reflexivity]|].
  destruct v as [z| | | |]; try contradiction. split.
  - constructor; [now apply always_kept_ok|exact IH1].
  - cbn [norm view carry]. f_equal. exact IH2.
Qed.
Lemma fits_scalars sc l : forallb (fits (EScalar sc)) l = true.
Proof. induction l as [|[] l IH]; cbn; auto. Qed.
Lemma carry_zero sc sc' : carry (EScalar sc) (EScalar sc') (SvZ 0) = SvZ 0.
Proof. destruct sc'; reflexivity. Qed.

Lemma packed_goes sc sc' num max fs' os' i ovs l vals : always_kept sc sc' = true -> 1 <= num < 2 ^ 29 -> 0 < max ->
  nth_error fs' i = Some (num, KRep max, EScalar sc') -> nth_error vals i = Some (SvR []) -> Forall (wt (EScalar sc)) l -> l <> [] ->
  zlen (flat_map (enc (EScalar sc)) (map (view (EScalar sc)) l)) < 2 ^ 32 ->
  goes fs' os' (zlen l <=? max) (SvM vals ovs) (tag num LENDEL ++ delimited (flat_map (enc (EScalar sc)) (map (view (EScalar sc)) l)))
    (SvM (upd i (SvR (map (carry (EScalar sc) (EScalar sc')) (map (norm (EScalar sc)) (map (view (EScalar sc)) l)))) vals) ovs).
Proof.
  intros Hk Hnum Hmax Hf Hv Hw Hne Hz. destruct (packed_cast sc sc' l Hk Hw) as (Hpk & Emap). apply goes_record. intros tail.
  set (p := flat_map (enc (EScalar sc)) (map (view (EScalar sc)) l)) in *. pose proof (zlen_nonneg p).
  assert (Hl : varint32 (varint (zlen p)) (zlen p)) by (apply varint_varint32; lia).
  unfold delimited. rewrite <- !app_assoc. unfold outcome. destruct (Z.leb_spec (zlen l) max).
  - rewrite <- Emap. eapply rread_field; eauto; [now apply tag_varint32|].
    pose proof (fread_packed false bd max sc' [] (varint (zlen p)) (zlen p) p (map (fun v => match v with VS z => cast sc' z | _ => 0 end) l) [] tail) as HH.
    rewrite !app_nil_r in HH. apply HH; auto; [now left|now apply packed_dec_reads|rewrite zlen_nil, zlen_map; lia|apply scalar_fails_nil].
  - destruct (packed_split sc sc' l (Z.to_nat max) Hk Hw) as (q & zs & c & z & r & Ep & Hq & Hzs & Hc); [unfold zlen in *; lia|]. fold p in Ep. clearbody p.
    subst p. do 2 eexists. eapply rread_field; eauto; [now apply tag_varint32|].
    eapply (fread_packed_full false bd max sc' [] _ (zlen (q ++ c ++ r)) q zs c z r tail); eauto.
    + now left.
    + rewrite zlen_nil. unfold zlen. lia.
Qed.

(** What is blank is not written. *)
Definition blank_ok (t : ety) : Prop := match t with
  | EScalar _ => True
  | _ => forall v, wt t v -> (enc t (view t v) = [] <-> blank (norm t (view t v)) = true)
  end.
Lemma plain_row num t x : blank_ok t -> wt t x ->
  let nx := norm_field KPlain t (norm t) (view t x) in
  (enc_field num KPlain t (enc t) (view t x) = [] /\ blank nx = true
     /\ (match t with EScalar _ => nx = SvZ 0 | _ => enc t (view t x) = [] /\ nx = norm t (view t x) end))
  \/ (enc_field num KPlain t (enc t) (view t x) = enc_elem num t (enc t (view t x)) /\ blank nx = false /\ nx = norm t (view t x)).
Proof.
  intros Hb Hw nx. destruct t as [sc|st max|fs os].
  - destruct x as [z| | | |]; try contradiction. subst nx. cbn [view enc_field norm_field]. destruct (is_zero sc z) eqn:Ez; [left; auto|right].
    split; [reflexivity|]. split; [|reflexivity]. cbn [blank]. destruct (Z.eqb_spec z 0) as [->|]; [|reflexivity].
    destruct sc; discriminate.
  - destruct (bytes_view _ _ _ Hw) as (b & Eb & _). specialize (Hb _ Hw). subst nx.
    assert (En : norm_field KPlain (EBytes st max) (norm (EBytes st max)) (view (EBytes st max) x) = norm (EBytes st max) (view (EBytes st max) x))
      by (rewrite Eb; reflexivity).
    rewrite En. unfold enc_field. destruct (enc (EBytes st max) (view (EBytes st max) x)) as [|y p]; [left|right].
    + split; [reflexivity|]. split; [now apply Hb|auto].
    + split; [reflexivity|]. split; [|reflexivity]. destruct (blank _); [|reflexivity]. destruct Hb as [_ Hb]. discriminate (Hb eq_refl).
  - specialize (Hb _ Hw). subst nx.
    assert (En : norm_field KPlain (EMsg fs os) (norm (EMsg fs os)) (view (EMsg fs os) x) = norm (EMsg fs os) (view (EMsg fs os) x))
      by (destruct x; try contradiction; reflexivity).
    rewrite En. unfold enc_field. destruct (enc (EMsg fs os) (view (EMsg fs os) x)) as [|y p]; [left|right].
    + split; [reflexivity|]. split; [now apply Hb|auto].
    + split; [reflexivity|]. split; [|reflexivity]. destruct (blank _); [|reflexivity]. destruct Hb as [_ Hb]. discriminate (Hb eq_refl).
Qed.
Lemma field_blank num k t oi pres x : blank_ok t -> wt_field k (wt t) x ->
  let v := view_field k (view t) oi pres x in
  enc_field num k t (enc t) v = [] <-> blank (norm_field k t (norm t) v) = true.
Proof.
  intros Hb Hw v. destruct k as [| |max|]; cbn [wt_field] in Hw; subst v; cbn [view_field].
  - destruct (plain_row num t x Hb Hw) as [(E1 & E2 & _)|(E1 & E2 & _)]; rewrite E1, E2; [tauto|].
    split; [|discriminate]. intros H. exfalso. destruct t; cbn [enc_elem] in H; apply app_eq_nil in H; destruct H as [H _]; now apply tag_nonempty in H.
  - destruct (present pres oi); cbn [enc_field norm_field blank]; [|tauto]. split; [|discriminate]. intros H. exfalso.
    destruct t; cbn [enc_elem] in H; apply app_eq_nil in H; destruct H as [H _]; now apply tag_nonempty in H.
  - destruct x as [| | |len data|]; try contradiction. cbn [norm_field blank]. destruct (map (view t) (firstn (Z.to_nat len) data)) as [|y l].
    + destruct t; cbn; tauto.
    + cbn [map]. split; [|discriminate]. intros He. exfalso. destruct t; cbn [enc_field flat_map enc_elem] in He; [|apply app_eq_nil in He; destruct He as [He _]..];
        destruct (app_eq_nil _ _ He) as [E _]; now apply tag_nonempty in E.
  - cbn. tauto.
Qed.
Lemma blank_all t : blank_ok t.
Proof.
  induction t as [sc|st max|fs os Hf Ho] using ety_ind'; [exact I| |]; intros v Hw.
  - destruct (bytes_view _ _ _ Hw) as (b & -> & _). cbn. destruct b; split; congruence.
  - destruct v as [| | | |pres xs ovs]; try contradiction. rewrite view_tab, enc_tab, norm_tab. cbn [wt] in Hw. destruct Hw as (_ & _ & Hw1 & Hw2).
    cbn [blank]. rewrite andb_true_iff.
    assert (H1 : enc_fields (etab fs) (view_fields (vtab fs) 0 pres xs) = [] <-> forallb blank (norm_fields (ntab fs) (view_fields (vtab fs) 0 pres xs)) = true).
    { clear Ho Hw2. generalize 0 as oi. revert xs Hw1. induction Hf as [|[[num k] t] fs Ht Hf IH]; intros xs Hw oi; destruct xs as [|x xs]; cbn [all2] in Hw; try contradiction; [cbn; tauto|].
      destruct Hw as [Hx Hw]. cbn [etab vtab ntab map view_fields enc_fields norm_fields forallb].
      rewrite andb_true_iff, <- (field_blank num k t oi pres x Ht Hx). fold (etab fs) (vtab fs) (ntab fs). rewrite <- (IH _ Hw). split.
      - apply app_eq_nil.
      - intros [-> ->]. reflexivity. }
    assert (H2 : enc_oneofs (eotab os) (view_oneofs (votab os) ovs) = [] <-> forallb (fun '(_, x) => match x with SvNone => true | _ => false end) (norm_oneofs (notab os) (view_oneofs (votab os) ovs)) = true).
    { clear H1 Hw1 Hf Ho. revert ovs Hw2. induction os as [|ms os IH]; intros ovs Hw; destruct ovs as [|o ovs]; cbn [all2] in Hw; try contradiction; [cbn; tauto|].
      destruct Hw as [Hwo Hw]. cbn [votab eotab notab map view_oneofs enc_oneofs norm_oneofs forallb]. rewrite andb_true_iff.
      fold (eotab os) (votab os) (notab os). rewrite <- (IH _ Hw). clear IH.
      unfold view_oneof, enc_oneof, norm_oneof. rewrite (lookup_map view). destruct (lookup ms (fst o)) as [t|] eqn:El; cbn [option_map fst snd].
      - rewrite lookup_map, El, (lookup_map norm), El. cbn [option_map]. split; [|intros [H _]; discriminate]. intros H. exfalso.
        destruct t; cbn [enc_elem] in H; apply app_eq_nil in H; destruct H as [H _]; apply app_eq_nil in H; destruct H as [H _]; now apply tag_nonempty in H.
      - replace (match lookup (map (fun '(num, t) => (num, norm t)) ms) 0 with Some _ | None => (0, SvNone) end) with (0, SvNone) by (destruct (lookup _ 0); reflexivity).
        replace (match lookup (map (fun '(num, t) => (num, (t, enc t))) ms) 0 with Some (_, _) | None => @nil Z end) with (@nil Z) by (destruct (lookup _ 0) as [[? ?]|]; reflexivity).
        cbn [app]. tauto. }
    rewrite <- H1, <- H2. split; [apply app_eq_nil|]. intros [-> ->]. reflexivity.
Qed.

(** An element that is not written has no effect on the receiver. *)
Definition nil_ok (t : ety) : Prop := forall v t', version t t' -> wt t v -> desc_ok t' -> enc t (view t v) = [] ->
  carry t t' (norm t (view t v)) = sdefault t'.
Definition wrap (k' : fkind) (y : sval) : sval := match k' with KOpt => SvSome y | _ => y end.

(** One field that the receiver knows. *)
Lemma field_goes fs' os' i ovs num k t k' t' oi pres x vals :
  msg_ok t -> version t t' -> same_kind k k' -> desc_ok t -> desc_ok t' -> (match k' with KRep max => capacity_ok max | _ => True end) ->
  1 <= num < 2 ^ 29 -> nth_error fs' i = Some (num, k', t') -> wt_field k (wt t) x -> nil_ok t ->
  nth_error vals i = Some (sdefault_field k' (sdefault t')) ->
  let v := view_field k (view t) oi pres x in
  let w := carry_field k k' (carry t t') (sdefault t') (norm_field k t (norm t) v) in
  zlen (enc_field num k t (enc t) v) < 2 ^ 32 ->
  goes fs' os' (fits_field k' (fits t') w) (SvM vals ovs) (enc_field num k t (enc t) v) (SvM (upd i w vals) ovs).
Proof.
  intros Hm Hver Hk Hd Hd' Hcap Hnum Hf Hw Hnil Hv v w Hz.
  assert (Hrec : wt t x -> zlen (enc_elem num t (enc t (view t x))) < 2 ^ 32 -> forall tail,
            outcome (fits t' (carry t t' (norm t (view t x)))) (eread t' (sdefault t') (enc_rec t (enc t (view t x)) ++ tail)) (carry t t' (norm t (view t x))) tail).
  { intros Hwx Hzz tail. apply elem_read; auto. pose proof (zlen_enc_elem num t (enc t (view t x))). lia. }
  assert (Hone : k' = KPlain \/ k' = KOpt -> wt t x -> zlen (enc_elem num t (enc t (view t x))) < 2 ^ 32 ->
            goes fs' os' (fits t' (carry t t' (norm t (view t x)))) (SvM vals ovs) (enc_elem num t (enc t (view t x)))
              (SvM (upd i (wrap k' (carry t t' (norm t (view t x)))) vals) ovs)).
  { intros Hk' Hwx Hzz. specialize (Hrec Hwx Hzz). apply goes_record. intros tail. specialize (Hrec tail). rewrite enc_elem_rec, (version_wiretype _ _ Hver), <- app_assoc.
    destruct Hk' as [-> | ->]; cbn [sdefault_field wrap] in *; unfold outcome in *; destruct (fits t' _).
    - eapply rread_field; eauto; [now apply tag_varint32|]. apply fread_plain. exact Hrec.
    - destruct Hrec as (n & r & Hrec). do 2 eexists. eapply rread_field; eauto; [now apply tag_varint32|]. apply fread_plain. exact Hrec.
    - eapply rread_field; eauto; [now apply tag_varint32|]. apply fread_opt. exact Hrec.
    - destruct Hrec as (n & r & Hrec). do 2 eexists. eapply rread_field; eauto; [now apply tag_varint32|]. apply fread_opt. exact Hrec. }
  assert (Hplain : k = KPlain -> carry t t' (norm_field KPlain t (norm t) (view t x)) = sdefault t' \/ enc_field num KPlain t (enc t) (view t x) <> []).
  { intros ->. cbn [wt_field] in Hw. destruct (plain_row num t x (blank_all t) Hw) as [(E1 & _ & E3)|(E1 & _)].
    - left. destruct t as [sc| |]; [rewrite E3; inversion Hver; subst; apply carry_zero|destruct E3 as [E4 ->]; now apply Hnil..].
    - right. rewrite E1. intros H. destruct t; cbn [enc_elem] in H; apply app_eq_nil in H; destruct H as [H _]; now apply tag_nonempty in H. }
  destruct k as [| |max|]; cbn [wt_field] in Hw.
  - (* plain *)
    subst v. cbn [view_field] in *. specialize (Hplain eq_refl).
    destruct (plain_row num t x (blank_all t) Hw) as [(E1 & E2 & _)|(E1 & E2 & E3)]; rewrite E1 in *.
    + destruct Hplain as [Hp|Hp]; [|congruence]. assert (Ew : w = sdefault_field k' (sdefault t')).
      { subst w. destruct k'; try contradiction; cbn [carry_field sdefault_field]; [exact Hp|]. now rewrite E2. }
      clearbody w. subst w. rewrite upd_same by exact Hv. rewrite fits_field_default; [apply goes_nil|now apply fits_default|]. destruct k'; auto. unfold capacity_ok in Hcap. lia.
    + assert (Hk' : k' = KPlain \/ k' = KOpt) by (destruct k'; try contradiction; auto). specialize (Hone Hk' Hw Hz).
      assert (Ew : w = wrap k' (carry t t' (norm t (view t x)))).
      { subst w. destruct Hk' as [-> | ->]; cbn [carry_field wrap]; [now rewrite E3|]. now rewrite E2, E3. }
      clearbody w. subst w. destruct Hk' as [-> | ->]; exact Hone.
  - (* optional *)
    assert (Hk' : k' = KPlain \/ k' = KOpt) by (destruct k'; try contradiction; auto). specialize (Hone Hk').
    subst v w. cbn [view_field] in *. destruct (present pres oi); cbn [norm_field enc_field] in *.
    + specialize (Hone Hw Hz). destruct Hk' as [-> | ->]; exact Hone.
    + replace (carry_field KOpt k' (carry t t') (sdefault t') SvNone) with (sdefault_field k' (sdefault t')) by (destruct Hk' as [-> | ->]; reflexivity).
      rewrite upd_same by exact Hv. rewrite fits_field_default; [apply goes_nil|now apply fits_default|]. destruct Hk' as [-> | ->]; exact I.
  - (* repeated *)
    destruct k' as [| |max'|]; try contradiction. subst v w.
    destruct x as [| | |len data|]; try contradiction. destruct Hw as (Hl & Hzd & Hwd). apply all_Forall in Hwd.
    assert (Hwl : Forall (wt t) (firstn (Z.to_nat len) data)) by now apply Forall_firstn. cbn [view_field] in *.
    remember (firstn (Z.to_nat len) data) as l eqn:El. clear El Hwd Hzd Hl Hrec Hone Hplain Hnil data.
    cbn [carry_field fits_field norm_field sdefault_field] in *. unfold capacity_ok in Hcap. rewrite !zlen_map.
    destruct (is_packed t) eqn:Ep.
    + destruct t as [sc| |]; try discriminate. inversion Hver as [? sc' Hkept| |]; subst. rewrite fits_scalars, andb_true_r. cbn [enc_field] in *.
      destruct l as [|x l].
      * replace (zlen (@nil value) <=? max') with true by (rewrite zlen_nil; lia). cbn [map]. rewrite upd_same by exact Hv. apply goes_nil.
      * remember (x :: l) as l' eqn:El'. assert (Hne : l' <> []) by (subst; discriminate).
        replace (match map (view (EScalar sc)) l' with [] => [] | _ :: _ => tag num LENDEL ++ delimited (flat_map (enc (EScalar sc)) (map (view (EScalar sc)) l')) end)
          with (tag num LENDEL ++ delimited (flat_map (enc (EScalar sc)) (map (view (EScalar sc)) l'))) in * by (subst l'; reflexivity).
        apply packed_goes; auto; [lia|]. rewrite zlen_app in Hz. pose proof (zlen_nonneg (tag num LENDEL)).
        pose proof (zlen_delimited (flat_map (enc (EScalar sc)) (map (view (EScalar sc)) l'))). lia.
    + assert (E : forall e : sval -> list Z, enc_field num (KRep max) t e (SvR (map (view t) l)) = flat_map (fun x => enc_elem num t (e x)) (map (view t) l))
        by (intros; destruct t; [discriminate|reflexivity|reflexivity]).
      rewrite E in *. replace (zlen l <=? max') with (zlen (@nil sval) + zlen l <=? max') by (rewrite zlen_nil; f_equal; lia).
      apply (unpacked_goes t t' num max' fs' os' i ovs Ep Hm Hver Hd Hd' Hnum Hf l [] vals); auto. rewrite zlen_nil. lia.
  - (* dropped *)
    destruct k'; try contradiction. subst v w. cbn [view_field sdefault_field carry_field norm_field enc_field] in *. rewrite upd_same by exact Hv. apply goes_nil.
Qed.

(** One field that the receiver does not know. *)
Lemma unknown_goes fs' os' num w r vals ovs : ~ In num (field_numbers fs' os') -> 1 <= num < 2 ^ 29 -> skippable w r ->
  goes fs' os' true (SvM vals ovs) (tag num w ++ r) (SvM vals ovs).
Proof.
  intros Hn Hnum Hs. apply goes_record. intros tail. cbn [outcome]. rewrite <- app_assoc. eapply rread_unknown; eauto; [lia|now apply tag_varint32].
Qed.
Lemma unknown_elem fs' os' num t v vals ovs : ~ In num (field_numbers fs' os') -> 1 <= num < 2 ^ 29 -> wt t v -> desc_ok t ->
  zlen (enc_elem num t (enc t (view t v))) < 2 ^ 32 -> goes fs' os' true (SvM vals ovs) (enc_elem num t (enc t (view t v))) (SvM vals ovs).
Proof.
  intros Hn Hnum Hw Hd Hz. pose proof (zlen_enc_elem num t (enc t (view t v))). rewrite enc_elem_rec. apply unknown_goes; auto. apply elem_skippable; auto. lia.
Qed.
Lemma unknown_field_goes fs' os' ovs num k t oi pres x vals :
  ~ In num (field_numbers fs' os') -> desc_ok t -> 1 <= num < 2 ^ 29 -> wt_field k (wt t) x ->
  let v := view_field k (view t) oi pres x in
  zlen (enc_field num k t (enc t) v) < 2 ^ 32 ->
  goes fs' os' true (SvM vals ovs) (enc_field num k t (enc t) v) (SvM vals ovs).
Proof.
  intros Hn Hd Hnum Hw v Hz. destruct k as [| |max|]; cbn [wt_field] in Hw; subst v; cbn [view_field] in *.
  - destruct t as [sc|st cap|fs os].
    + destruct x as [z| | | |]; try contradiction. cbn [view enc_field] in *. destruct (is_zero sc z); [apply goes_nil|].
      exact (unknown_elem _ _ _ (EScalar sc) (VS z) _ _ Hn Hnum Hw Hd Hz).
    + unfold enc_field in *. pose proof (unknown_elem fs' os' num _ x vals ovs Hn Hnum Hw Hd) as H.
      destruct (enc (EBytes st cap) (view (EBytes st cap) x)) as [|y p]; [apply goes_nil|auto].
    + unfold enc_field in *. pose proof (unknown_elem fs' os' num _ x vals ovs Hn Hnum Hw Hd) as H.
      destruct (enc (EMsg fs os) (view (EMsg fs os) x)) as [|y p]; [apply goes_nil|auto].
  - destruct (present pres oi); cbn [enc_field] in *; [|apply goes_nil]. now apply unknown_elem.
  - destruct x as [| | |len data|]; try contradiction. destruct Hw as (Hl & Hzd & Hwd). apply all_Forall in Hwd.
    assert (Hwl : Forall (wt t) (firstn (Z.to_nat len) data)) by now apply Forall_firstn.
    remember (firstn (Z.to_nat len) data) as l eqn:El. clear El Hwd Hzd Hl data. destruct (is_packed t) eqn:Ep.
    + destruct t as [sc| |]; try discriminate. cbn [enc_field] in *. destruct l as [|x l]; [apply goes_nil|]. cbn [map] in *.
      remember (view (EScalar sc) x :: map (view (EScalar sc)) l) as svs eqn:Es. apply unknown_goes; auto. apply skip_lendel.
      * rewrite !zlen_app in Hz. pose proof (zlen_nonneg (tag num LENDEL)). pose proof (zlen_nonneg (flat_map (enc (EScalar sc)) svs)).
        pose proof (zlen_delimited (flat_map (enc (EScalar sc)) svs)). apply varint_varint32. lia.
      * subst svs. change (view (EScalar sc) x :: map (view (EScalar sc)) l) with (map (view (EScalar sc)) (x :: l)).
        eapply packed_dec_bytes. apply (packed_enc sc (x :: l) Hwl).
    + assert (E : forall e : sval -> list Z, enc_field num (KRep max) t e (SvR (map (view t) l)) = flat_map (fun x => enc_elem num t (e x)) (map (view t) l))
        by (intros; destruct t; [discriminate|reflexivity|reflexivity]).
      rewrite E in *. clear E. induction Hwl as [|x l Hx Hl IH]; cbn [map flat_map] in *; [apply goes_nil|]. rewrite zlen_app in Hz.
      pose proof (zlen_nonneg (enc_elem num t (enc t (view t x)))). pose proof (zlen_nonneg (flat_map (fun x => enc_elem num t (enc t x)) (map (view t) l))).
      apply (goes_app fs' os' true true) with (v2 := SvM vals ovs).
      * apply unknown_elem; auto. lia.
      * intros _. apply IH. lia.
  - apply goes_nil.
Qed.

(** ** All fields, in the sender's order *)
Definition fin (k' : fkind) (t' : ety) (o : option (fkind * ety * sval)) : sval :=
  match o with
  | Some (k, t, v) => carry_field k k' (carry t t') (sdefault t') v
  | None => sdefault_field k' (sdefault t')
  end.
Definition St (fs' : list fdesc) (rs : list row) : list sval := map (fun '(n, k', t') => fin k' t' (sent rs n)) fs'.
Definition fit1 (k' : fkind) (t' : ety) (o : option (fkind * ety * sval)) : bool :=
  match o with Some (k, t, v) => fits_field k' (fits t') (fin k' t' (Some (k, t, v))) | None => true end.
Definition fitS (fs' : list fdesc) (rs : list row) : bool := forallb (fun '(n, k', t') => fit1 k' t' (sent rs n)) fs'.
Definition fino (ms' : odesc) (o : option (Z * ety * sval)) : Z * sval :=
  match o with
  | Some (num, t, x) => match lookup ms' num with Some t' => (num, SvSome (carry t t' x)) | None => (0, SvNone) end
  | None => (0, SvNone)
  end.
Definition Sto (os' : list odesc) (rs : list row) : list (Z * sval) := map (fun ms' => fino ms' (sent_member rs (map fst ms'))) os'.
Definition fit1o (ms' : odesc) (o : option (Z * ety * sval)) : bool :=
  match o with
  | Some (num, t, x) => match lookup ms' num with Some t' => fits t' (carry t t' x) | None => true end
  | None => true
  end.
Definition fitSo (os' : list odesc) (rs : list row) : bool := forallb (fun ms' => fit1o ms' (sent_member rs (map fst ms'))) os'.

Definition enc_rows (rs : list row) : list Z := flat_map (fun '(n, k, t, v) => enc_field n k t (enc t) v) rs.
Definition nrow (r : row) : row := let '(n, k, t, v) := r in (n, k, t, norm_field k t (norm t) v).
Definition row_ok (r : row) : Prop := let '(n, k, t, v) := r in
  exists oi pres x, wt_field k (wt t) x /\ v = view_field k (view t) oi pres x.

Lemma rnum_nrow rs : map rnum (map nrow rs) = map rnum rs.
Proof. rewrite map_map. apply map_ext. intros [[[n k] t] v]. reflexivity. Qed.
Lemma St_nth fs' rs i n k' t' : nth_error fs' i = Some (n, k', t') -> nth_error (St fs' rs) i = Some (fin k' t' (sent rs n)).
Proof. intros H. unfold St. rewrite nth_error_map, H. reflexivity. Qed.
Lemma St_known fs' rs i num k t v k' t' : NoDup (map (fun '(m, _, _) => m) fs') ->
  ~ In num (map rnum rs) -> nth_error fs' i = Some (num, k', t') ->
  St fs' (rs ++ [(num, k, t, v)]) = upd i (fin k' t' (Some (k, t, v))) (St fs' rs).
Proof.
  intros Hnd Hn Hi. apply nth_error_ext. intros j. destruct (Nat.eq_dec i j) as [<-|Hij].
  - rewrite nth_error_upd_same by (unfold St; rewrite map_length; eapply nth_error_lt; eauto).
    rewrite (St_nth _ _ _ _ _ _ Hi), sent_app, sent_none by auto. cbn [sent]. rewrite Z.eqb_refl. reflexivity.
  - rewrite nth_error_upd_other by auto. unfold St. rewrite !nth_error_map. destruct (nth_error fs' j) as [[[n k2] t2]|] eqn:Ej; [|reflexivity].
    cbn [option_map]. rewrite sent_app. cbn [sent]. destruct (Z.eqb_spec num n) as [<-|]; [|destruct (sent rs n); reflexivity].
    exfalso. apply Hij. eapply NoDup_field; eauto.
Qed.
Lemma St_unknown fs' rs num k t v : ~ In num (map (fun '(m, _, _) => m) fs') -> St fs' (rs ++ [(num, k, t, v)]) = St fs' rs.
Proof.
  intros Hn. unfold St. apply map_ext_in. intros [[n k'] t'] Hin. rewrite sent_app. cbn [sent].
  destruct (Z.eqb_spec num n) as [<-|]; [|destruct (sent rs n); reflexivity].
  exfalso. apply Hn. apply in_map_iff. eexists. split; [|exact Hin]. reflexivity.
Qed.
Lemma fitS_step fs' rs num k t v : fitS fs' rs = true ->
  (forall k' t', In (num, k', t') fs' -> fit1 k' t' (Some (k, t, v)) = true) -> fitS fs' (rs ++ [(num, k, t, v)]) = true.
Proof.
  intros H1 H2. unfold fitS in *. rewrite forallb_forall in *. intros [[n k'] t'] Hin. specialize (H1 _ Hin). cbn in H1 |- *.
  rewrite sent_app. destruct (sent rs n); [exact H1|]. cbn [sent]. destruct (Z.eqb_spec num n) as [<-|]; [auto|reflexivity].
Qed.
Lemma sent_first rs1 num k t v rs2 : ~ In num (map rnum rs1) -> sent (rs1 ++ (num, k, t, v) :: rs2) num = Some (k, t, v).
Proof. intros H. rewrite sent_app, sent_none by exact H. cbn [sent]. now rewrite Z.eqb_refl. Qed.

(** A row that does not matter for the oneofs. *)
Lemma Sto_skip os' rs num k t v : given k v = None \/ (forall ms', In ms' os' -> ~ In num (map fst ms')) ->
  Sto os' (rs ++ [(num, k, t, v)]) = Sto os' rs /\ (fitSo os' rs = true -> fitSo os' (rs ++ [(num, k, t, v)]) = true).
Proof.
  intros H.
  assert (Hs : forall ms', In ms' os' -> sent_member [(num, k, t, v)] (map fst ms') = None).
  { intros ms' Hin. cbn [sent_member]. destruct H as [-> |H]; [reflexivity|]. destruct (given k v); [|reflexivity].
    destruct (existsb (Z.eqb num) (map fst ms')) eqn:E; [|reflexivity]. apply existsb_In in E. now apply H in E. }
  split.
  - unfold Sto. apply map_ext_in. intros ms' Hms'. rewrite sent_member_app, Hs by auto. destruct (sent_member rs (map fst ms')); reflexivity.
  - intros Hfit. unfold fitSo in *. rewrite forallb_forall in *. intros ms' Hms'. specialize (Hfit _ Hms'). rewrite sent_member_app, Hs by auto.
    destruct (sent_member rs (map fst ms')); [exact Hfit|reflexivity].
Qed.
Lemma NoDup_app_r {A} (a b : list A) : NoDup (a ++ b) -> NoDup b.
Proof. induction a as [|x a IH]; [auto|]. cbn [app]. intros H. inversion H; auto. Qed.
Lemma NoDup_app_disjoint {A} (a b : list A) x : NoDup (a ++ b) -> In x a -> In x b -> False.
Proof.
  induction a as [|y a IH]; intros H Ha Hb; [contradiction|]. cbn [app] in H. inversion H; subst. destruct Ha as [->|Ha]; [|eauto].
  rewrite in_app_iff in *. tauto.
Qed.
Lemma NoDup_member (os : list odesc) i j ms ms' n : NoDup (flat_map (map fst) os) -> nth_error os i = Some ms -> nth_error os j = Some ms' ->
  In n (map fst ms) -> In n (map fst ms') -> i = j.
Proof.
  revert i j. induction os as [|m os IH]; intros i j Hnd Hi Hj Hn Hn'; [destruct i; discriminate|]. cbn [flat_map] in Hnd.
  assert (Hdis : forall k mk, nth_error os k = Some mk -> In n (map fst mk) -> In n (map fst m) -> False).
  { intros k mk Hk H1 H2. eapply NoDup_app_disjoint; eauto. apply in_flat_map. exists mk. split; [eapply nth_error_In; eauto|exact H1]. }
  destruct i as [|i], j as [|j]; cbn [nth_error] in *.
  - reflexivity.
  - injection Hi as ->. exfalso. eauto.
  - injection Hj as ->. exfalso. eauto.
  - f_equal. eapply IH; eauto. now apply NoDup_app_r in Hnd.
Qed.

(** What a field that has no list and that is set is written as. *)
Lemma given_row num k t oi pres x : k = KPlain \/ k = KOpt -> wt t x ->
  let v := view_field k (view t) oi pres x in
  (enc_field num k t (enc t) v = [] /\ given k (norm_field k t (norm t) v) = None)
  \/ (enc_field num k t (enc t) v = enc_elem num t (enc t (view t x)) /\ given k (norm_field k t (norm t) v) = Some (norm t (view t x))).
Proof.
  intros Hk Hw v. destruct Hk as [-> | ->]; subst v; cbn [view_field].
  - destruct (plain_row num t x (blank_all t) Hw) as [(E1 & E2 & _)|(E1 & E2 & E3)]; [left|right]; (split; [exact E1|]).
    + unfold given. now rewrite E2.
    + unfold given. now rewrite E2, E3.
  - destruct (present pres oi); cbn [enc_field norm_field given]; auto.
Qed.

Lemma in_members fs' os' j ms' num t' : nth_error os' j = Some ms' -> lookup ms' num = Some t' -> In (num, KOpt, t') (declared fs' os').
Proof.
  intros Hj Hl. unfold declared. apply in_or_app. right. apply in_flat_map. exists ms'. split; [eapply nth_error_In; eauto|].
  apply in_map_iff. exists (num, t'). split; [reflexivity|]. now apply lookup_In in Hl.
Qed.

Lemma rows_go fs' os' rs : desc_ok (EMsg fs' os') -> NoDup (map rnum rs) ->
  (forall num k t v k' t', In (num, k, t, v) rs -> In (num, k', t') (declared fs' os') -> same_kind k k' /\ version t t') ->
  (forall ms' n1 k1 t1 v1 x1 n2 k2 t2 v2 x2, In ms' os' -> In n1 (map fst ms') -> In n2 (map fst ms') ->
     In (n1, k1, t1, v1) (map nrow rs) -> In (n2, k2, t2, v2) (map nrow rs) -> given k1 v1 = Some x1 -> given k2 v2 = Some x2 -> n1 = n2) ->
  forall rs2 rs1, rs = rs1 ++ rs2 -> Forall row_ok rs2 ->
  Forall (fun '(n, _, t, _) => 1 <= n < 2 ^ 29 /\ desc_ok t /\ msg_ok t /\ nil_ok t) rs2 ->
  zlen (enc_rows rs2) < 2 ^ 32 -> fitS fs' (map nrow rs1) && fitSo os' (map nrow rs1) = true ->
  goes fs' os' (fitS fs' (map nrow rs) && fitSo os' (map nrow rs)) (SvM (St fs' (map nrow rs1)) (Sto os' (map nrow rs1))) (enc_rows rs2)
    (SvM (St fs' (map nrow rs)) (Sto os' (map nrow rs))).
Proof.
  intros Hd' Hnd V1 V2. pose proof (NoDup_fields _ _ Hd') as Hnd'.
  assert (Hndo : NoDup (flat_map (map fst) os')) by (destruct Hd' as (H & _); unfold field_numbers in H; now apply NoDup_app_r in H).
  assert (Hdis : forall n, In n (map (fun '(m, _, _) => m) fs') -> In n (flat_map (map fst) os') -> False)
    by (intros n; destruct Hd' as (H & _); apply (NoDup_app_disjoint _ _ n H)).
  induction rs2 as [|[[[num k] t] v] rs2 IH]; intros rs1 Ers Hok Hall Hz Hfit.
  - rewrite app_nil_r in Ers. subst rs1. rewrite Hfit. apply goes_nil.
  - inversion Hok as [|? ? Hrow Hok2]; inversion Hall as [|? ? Hrow2 Hall2]; subst. destruct Hrow2 as (Hnum & Hdt & Hmt & Hnt).
    apply andb_true_iff in Hfit. destruct Hfit as [Hf1 Hf2].
    cbn [enc_rows flat_map] in Hz |- *. fold (enc_rows rs2) in *. rewrite zlen_app in Hz.
    pose proof (zlen_nonneg (enc_field num k t (enc t) v)). pose proof (zlen_nonneg (enc_rows rs2)).
    assert (Hn1 : ~ In num (map rnum (map nrow rs1))).
    { rewrite rnum_nrow. rewrite map_app in Hnd. cbn [map rnum fst] in Hnd. apply NoDup_remove_2 in Hnd. rewrite in_app_iff in Hnd. tauto. }
    assert (Hin : In (num, k, t, v) (rs1 ++ (num, k, t, v) :: rs2)) by (apply in_or_app; right; now left).
    set (nv := norm_field k t (norm t) v).
    assert (Emap : map nrow (rs1 ++ (num, k, t, v) :: rs2) = map nrow rs1 ++ (num, k, t, nv) :: map nrow rs2) by (rewrite map_app; reflexivity).
    assert (Emap1 : map nrow (rs1 ++ [(num, k, t, v)]) = map nrow rs1 ++ [(num, k, t, nv)]) by (rewrite map_app; reflexivity).
    set (all := map nrow (rs1 ++ (num, k, t, v) :: rs2)) in *. set (nrs1 := map nrow rs1) in *.
    assert (Happ : forall ok1 mid, goes fs' os' ok1 (SvM (St fs' nrs1) (Sto os' nrs1)) (enc_field num k t (enc t) v) mid ->
              mid = SvM (St fs' (nrs1 ++ [(num, k, t, nv)])) (Sto os' (nrs1 ++ [(num, k, t, nv)])) ->
              (ok1 = true -> fitS fs' (nrs1 ++ [(num, k, t, nv)]) = true /\ fitSo os' (nrs1 ++ [(num, k, t, nv)]) = true) ->
              (ok1 = false -> fitS fs' all && fitSo os' all = false) ->
              goes fs' os' (fitS fs' all && fitSo os' all) (SvM (St fs' nrs1) (Sto os' nrs1))
                (enc_field num k t (enc t) v ++ enc_rows rs2) (SvM (St fs' all) (Sto os' all))).
    { intros ok1 mid Hg -> Ht Hf.
      replace (fitS fs' all && fitSo os' all) with (ok1 && (fitS fs' all && fitSo os' all)) by (destruct ok1; [reflexivity|now rewrite Hf]).
      eapply goes_app; [exact Hg|]. intros Hk1. destruct (Ht Hk1) as [Ht1 Ht2].
      pose proof (IH (rs1 ++ [(num, k, t, v)])) as IH'. rewrite <- !app_assoc in IH'. cbn [app] in IH'. rewrite Emap1 in IH'. fold all in IH'.
      apply IH'; auto; [lia|]. now rewrite Ht1, Ht2. }
    destruct Hrow as (oi & pres & x & Hwx & Ev).
    destruct (field_cases fs' os' num) as [(i & k' & t' & Hi)|[(j & ms' & t' & Hj & Hlk)|Hno]].
    + (* a field of the receiver *)
      assert (Hin' : In (num, k', t') fs') by (eapply nth_error_In; eauto).
      destruct (V1 _ _ _ _ _ _ Hin ltac:(unfold declared; apply in_or_app; left; exact Hin')) as [Hk Hvt].
      destruct (desc_field _ _ _ _ _ _ Hd' Hi) as (Hdt' & _ & Hcap').
      assert (Hnm : forall ms', In ms' os' -> ~ In num (map fst ms')).
      { intros ms' Hms' H'. apply (Hdis num); [apply in_map_iff; exists (num, k', t'); auto|]. apply in_flat_map. eauto. }
      destruct (Sto_skip os' nrs1 num k t nv (or_intror Hnm)) as [Hs1 Hs2].
      apply (Happ (fits_field k' (fits t') (fin k' t' (Some (k, t, nv)))) (SvM (upd i (fin k' t' (Some (k, t, nv))) (St fs' nrs1)) (Sto os' nrs1))).
      * subst nv. subst v. cbn [fin].
        apply (field_goes fs' os' i (Sto os' nrs1) num k t k' t' oi pres x (St fs' nrs1) Hmt Hvt Hk Hdt Hdt' Hcap' Hnum Hi Hwx Hnt); [|lia].
        rewrite (St_nth _ _ _ _ _ _ Hi), sent_none by exact Hn1. reflexivity.
      * rewrite Hs1. f_equal. symmetry. eapply St_known; eauto.
      * intros Hok1. split; [|now apply Hs2]. apply fitS_step; auto. intros k2 t2 H2. apply In_nth_error in H2. destruct H2 as (i2 & H2).
        assert (i2 = i) by (eapply NoDup_field; eauto). subst i2. rewrite Hi in H2. injection H2 as <- <-. exact Hok1.
      * intros Hno. apply andb_false_iff. left. unfold fitS. apply not_true_iff_false. rewrite forallb_forall. intros HA. specialize (HA _ Hin'). cbn in HA.
        rewrite Emap, sent_first in HA by exact Hn1. cbn [fit1] in HA. congruence.
    + (* a member of a oneof of the receiver *)
      assert (Hms' : In ms' os') by (eapply nth_error_In; eauto).
      assert (Hn' : In num (map fst ms')) by (apply lookup_In in Hlk; apply (in_map fst) in Hlk; exact Hlk).
      destruct (V1 _ _ _ _ _ _ Hin (in_members fs' os' j ms' num t' Hj Hlk)) as [Hk Hvt].
      assert (Hk2 : k = KPlain \/ k = KOpt) by (destruct k; try contradiction; auto).
      assert (Hw : wt t x) by (destruct Hk2 as [-> | ->]; exact Hwx).
      destruct (desc_member _ _ _ _ _ _ Hd' Hj Hlk) as (Hdt' & _).
      assert (Hnf : ~ In num (map (fun '(m, _, _) => m) fs')) by (intros H'; apply (Hdis num H'); apply in_flat_map; eauto).
      pose proof (given_row num k t oi pres x Hk2 Hw) as HG. cbv zeta in HG. rewrite <- Ev in HG. fold nv in HG.
      destruct HG as [(E1 & E2)|(E1 & E2)]; rewrite E1 in *.
      * destruct (Sto_skip os' nrs1 num k t nv (or_introl E2)) as [Hs1 Hs2].
        apply (Happ true (SvM (St fs' nrs1) (Sto os' nrs1)) (goes_nil _ _ _)); [rewrite Hs1, St_unknown by exact Hnf; reflexivity| |discriminate].
        intros _. split; [|now apply Hs2]. apply fitS_step; auto. intros k2 t2 H2. exfalso. apply Hnf. apply in_map_iff. eexists. split; [|exact H2]. reflexivity.
      * set (w := norm t (view t x)) in *.
        assert (Hone : forall among, sent_member [(num, k, t, nv)] among = if existsb (Z.eqb num) among then Some (num, t, w) else None)
          by (intros; cbn [sent_member]; rewrite E2; reflexivity).
        assert (Hself : existsb (Z.eqb num) (map fst ms') = true) by now apply existsb_In.
        assert (Hother : forall j2 ms2, nth_error os' j2 = Some ms2 -> j2 <> j -> existsb (Z.eqb num) (map fst ms2) = false).
        { intros j2 ms2 Hj2 Hne. apply not_true_iff_false. rewrite existsb_In. intros H2. apply Hne. eapply NoDup_member; eauto. }
        assert (Hbefore : sent_member nrs1 (map fst ms') = None).
        { destruct (sent_member nrs1 (map fst ms')) as [[[n u] y]|] eqn:Es; [|reflexivity]. exfalso.
          apply sent_member_in in Es. destruct Es as (k1 & v1 & Hi1 & Hg1 & Ha1). apply Hn1.
          assert (n = num).
          { eapply (V2 ms' n k1 u v1 y num k t nv w); eauto; fold all; rewrite Emap; apply in_or_app; [now left|right; now left]. }
          subst n. apply in_map_iff. eexists. split; [|exact Hi1]. reflexivity. }
        pose proof (zlen_enc_elem num t (enc t (view t x))).
        apply (Happ (fits t' (carry t t' w)) (SvM (St fs' nrs1) (upd j (num, SvSome (carry t t' w)) (Sto os' nrs1)))).
        -- apply goes_record. intros tail. pose proof (elem_read t x t' Hmt Hvt Hw Hdt Hdt' ltac:(lia) tail) as He. fold w in He.
           rewrite enc_elem_rec, (version_wiretype _ _ Hvt), <- app_assoc.
           assert (Hst : nth_error (Sto os' nrs1) j = Some (0, SvNone)) by (unfold Sto; rewrite nth_error_map, Hj; cbn [option_map]; rewrite Hbefore; reflexivity).
           assert (Hms0 : member_start num t' (0, SvNone) = sdefault t').
           { unfold member_start. cbn [fst snd]. destruct (Z.eqb_spec num 0); [lia|reflexivity]. }
           unfold outcome in *. destruct (fits t' _).
           ++ apply (rread_oneof false bd fs' os' (St fs' nrs1) (Sto os' nrs1) j ms' num t' (0, SvNone) _ _ NoErrors _ tail); auto.
              ** now apply tag_varint32.
              ** rewrite Hms0. exact He.
           ++ destruct He as (n & rr & He). do 2 eexists. eapply (rread_oneof false bd fs' os' (St fs' nrs1) (Sto os' nrs1) j ms' num t' (0, SvNone)); eauto.
              ** now apply tag_varint32.
              ** rewrite Hms0. exact He.
        -- rewrite (St_unknown fs' nrs1 num k t nv Hnf). f_equal. apply nth_error_ext. intros j2. destruct (Nat.eq_dec j j2) as [<-|Hne].
           ++ rewrite nth_error_upd_same by (unfold Sto; rewrite map_length; eapply nth_error_lt; eauto). unfold Sto. rewrite nth_error_map, Hj. cbn [option_map].
              rewrite sent_member_app, Hbefore, Hone, Hself. cbn [fino]. now rewrite Hlk.
           ++ rewrite nth_error_upd_other by auto. unfold Sto. rewrite !nth_error_map. destruct (nth_error os' j2) as [ms2|] eqn:Ej2; [|reflexivity]. cbn [option_map].
              rewrite sent_member_app, Hone, (Hother _ _ Ej2) by auto. destruct (sent_member nrs1 (map fst ms2)); reflexivity.
        -- intros Hok1. split.
           { apply fitS_step; auto. intros k2 t2 H2. exfalso. apply Hnf. apply in_map_iff. eexists. split; [|exact H2]. reflexivity. }
           unfold fitSo in *. rewrite forallb_forall in *. intros ms2 Hms2. specialize (Hf2 _ Hms2). apply In_nth_error in Hms2. destruct Hms2 as (j2 & Hj2).
           rewrite sent_member_app, Hone. destruct (Nat.eq_dec j2 j) as [->|Hne].
           ++ rewrite Hj in Hj2. injection Hj2 as <-. rewrite Hbefore, Hself. cbn [fit1o]. now rewrite Hlk.
           ++ rewrite (Hother _ _ Hj2 Hne). destruct (sent_member nrs1 (map fst ms2)); [exact Hf2|reflexivity].
        -- intros Hno. apply andb_false_iff. right. unfold fitSo. apply not_true_iff_false. rewrite forallb_forall. intros HA. specialize (HA _ Hms').
           rewrite Emap in HA. change ((num, k, t, nv) :: map nrow rs2) with ([(num, k, t, nv)] ++ map nrow rs2) in HA.
           rewrite sent_member_app, Hbefore, sent_member_app, Hone, Hself in HA. cbn [fit1o] in HA. rewrite Hlk in HA. congruence.
    + (* unknown *)
      assert (Hno' : ~ In num (map (fun '(m, _, _) => m) fs')) by (unfold field_numbers in Hno; rewrite in_app_iff in Hno; tauto).
      assert (Hnm : forall ms', In ms' os' -> ~ In num (map fst ms')).
      { intros ms' Hms' H'. apply Hno. unfold field_numbers. apply in_or_app. right. apply in_flat_map. eauto. }
      destruct (Sto_skip os' nrs1 num k t nv (or_intror Hnm)) as [Hs1 Hs2].
      apply (Happ true (SvM (St fs' nrs1) (Sto os' nrs1))).
      * rewrite Ev in *. apply (unknown_field_goes fs' os' (Sto os' nrs1) num k t oi pres x (St fs' nrs1) Hno Hdt Hnum Hwx). lia.
      * rewrite Hs1, St_unknown by exact Hno'. reflexivity.
      * intros _. split; [|now apply Hs2]. apply fitS_step; auto. intros k2 t2 H2. exfalso. apply Hno'. apply in_map_iff. eexists. split; [|exact H2]. reflexivity.
      * discriminate.
Qed.
End Receiver.

(** ** The rows of a message *)
Lemma field_rows_norm fs : forall vs, field_rows fs (norm_fields (ntab fs) vs) = map nrow (field_rows fs vs).
Proof. induction fs as [|[[m k] t] fs IH]; intros [|v vs]; try reflexivity. unfold ntab in *. cbn [map norm_fields field_rows nrow]. now rewrite IH. Qed.
Lemma lookup_None_In {A} (ms : list (Z * A)) n : lookup ms n = None -> ~ In n (map fst ms).
Proof.
  induction ms as [|[m a] ms IH]; cbn [lookup map In fst]; [tauto|]. destruct (Z.eqb_spec m n); [discriminate|]. intros H. specialize (IH H). tauto.
Qed.
Lemma lookup_NoDup {A} (ms : list (Z * A)) n a : NoDup (map fst ms) -> In (n, a) ms -> lookup ms n = Some a.
Proof.
  induction ms as [|[m b] ms IH]; intros Hnd Hin; [contradiction|]. cbn [map fst] in Hnd. inversion Hnd; subst. cbn [lookup]. destruct Hin as [E|Hin].
  - injection E as -> ->. now rewrite Z.eqb_refl.
  - destruct (Z.eqb_spec m n) as [->|]; [|auto]. exfalso. apply H1. apply in_map_iff. exists (n, a). auto.
Qed.
Lemma oneof_rows_norm os : NoDup (flat_map (map fst) os) -> forall ovs, oneof_rows os (norm_oneofs (notab os) ovs) = map nrow (oneof_rows os ovs).
Proof.
  induction os as [|ms os IH]; intros Hnd [|o ovs]; try reflexivity. cbn [flat_map] in Hnd. unfold notab in *. cbn [map norm_oneofs oneof_rows].
  rewrite map_app, IH by now apply NoDup_app_r in Hnd. f_equal. rewrite map_map. apply map_ext_in. intros [n t] Hin. cbn [nrow]. f_equal.
  assert (E : fst (norm_oneof (map (fun '(num, t0) => (num, norm t0)) ms) o) = fst o)
    by (unfold norm_oneof; destruct (lookup _ (fst o)), (snd o); reflexivity).
  rewrite E. destruct (Z.eqb_spec n (fst o)) as [->|]; [|reflexivity].
  assert (Hl : lookup ms (fst o) = Some t).
  { apply lookup_NoDup; [|exact Hin]. clear -Hnd. induction (map fst ms) as [|y l IHl]; [constructor|]. cbn [app] in Hnd. inversion Hnd; subst.
    constructor; [rewrite in_app_iff in *; tauto|auto]. }
  unfold norm_oneof. rewrite (lookup_map norm), Hl. cbn [option_map]. destruct (snd o) eqn:Eo; cbn [snd norm_field]; rewrite ?Eo; reflexivity.
Qed.
Lemma field_rows_enc fs : forall vs, enc_rows (field_rows fs vs) = enc_fields (etab fs) vs.
Proof. induction fs as [|[[m k] t] fs IH]; intros [|v vs]; try reflexivity. cbn [field_rows enc_rows flat_map etab map enc_fields]. fold (enc_rows (field_rows fs vs)). now rewrite IH. Qed.
Lemma one_rows_enc o ms : NoDup (map fst ms) ->
  enc_rows (map (fun '(n, t) => (n, KOpt, t, if n =? fst o then snd o else SvNone)) ms) = enc_oneof (map (fun '(num, t) => (num, (t, enc t))) ms) o.
Proof.
  assert (Hno : forall l, ~ In (fst o) (map fst l) -> enc_rows (map (fun '(n, t) => (n, KOpt, t, if n =? fst o then snd o else SvNone)) l) = []).
  { induction l as [|[n t] l IH]; intros H; [reflexivity|]. cbn [map In fst] in H. unfold enc_rows in *. cbn [map flat_map].
    destruct (Z.eqb_spec n (fst o)); [tauto|]. cbn [enc_field app]. apply IH. tauto. }
  unfold enc_oneof. induction ms as [|[n t] ms IH]; intros Hnd; [reflexivity|]. cbn [map fst] in Hnd. inversion Hnd; subst. cbn [map lookup].
  destruct (Z.eqb_spec n (fst o)) as [->|].
  - unfold enc_rows. cbn [flat_map]. fold (enc_rows (map (fun '(n, t) => (n, KOpt, t, if n =? fst o then snd o else SvNone)) ms)).
    rewrite Hno, app_nil_r by assumption. destruct (snd o); reflexivity.
  - unfold enc_rows. cbn [flat_map enc_field app]. now apply IH.
Qed.
Lemma oneof_rows_enc os : NoDup (flat_map (map fst) os) -> forall ovs, enc_rows (oneof_rows os ovs) = enc_oneofs (eotab os) ovs.
Proof.
  induction os as [|ms os IH]; intros Hnd [|o ovs]; try reflexivity. cbn [flat_map] in Hnd. cbn [oneof_rows eotab map enc_oneofs]. unfold enc_rows. rewrite flat_map_app.
  fold (enc_rows (oneof_rows os ovs)). rewrite IH by now apply NoDup_app_r in Hnd. f_equal. apply one_rows_enc.
  clear -Hnd. induction (map fst ms) as [|y l IHl]; [constructor|]. cbn [app] in Hnd. inversion Hnd; subst. constructor; [rewrite in_app_iff in *; tauto|auto].
Qed.
Lemma field_rows_num fs : forall vs, length fs = length vs -> map rnum (field_rows fs vs) = map (fun '(m, _, _) => m) fs.
Proof. induction fs as [|[[m k] t] fs IH]; intros [|v vs] H; try reflexivity; try discriminate. cbn [field_rows map rnum fst]. now rewrite IH by (injection H; auto). Qed.
Lemma oneof_rows_num os : forall ovs, length os = length ovs -> map rnum (oneof_rows os ovs) = flat_map (map fst) os.
Proof.
  induction os as [|ms os IH]; intros [|o ovs] H; try reflexivity; try discriminate. cbn [oneof_rows flat_map]. rewrite map_app, IH by (injection H; auto). f_equal.
  rewrite map_map. apply map_ext. now intros [n t].
Qed.
Lemma field_rows_in fs : forall vs n k t v, In (n, k, t, v) (field_rows fs vs) -> In (n, k, t) fs.
Proof.
  induction fs as [|[[m j] u] fs IH]; intros [|w vs] n k t v H; try contradiction. cbn [field_rows] in H. destruct H as [E|H]; [|right; eauto].
  injection E as -> -> -> ->. now left.
Qed.
Lemma oneof_rows_in os : forall ovs n k t v, In (n, k, t, v) (oneof_rows os ovs) ->
  k = KOpt /\ exists i ms o, nth_error os i = Some ms /\ nth_error ovs i = Some o /\ In (n, t) ms /\ v = (if n =? fst o then snd o else SvNone).
Proof.
  induction os as [|ms os IH]; intros [|o ovs] n k t v H; try contradiction. cbn [oneof_rows] in H. apply in_app_iff in H. destruct H as [H|H].
  - apply in_map_iff in H. destruct H as ([m u] & E & Hin). injection E as <- <- <- <-. split; [reflexivity|]. exists 0%nat, ms, o. auto.
  - destruct (IH _ _ _ _ _ H) as (Hk & i & ms0 & o0 & H1). split; [exact Hk|]. exists (S i), ms0, o0. exact H1.
Qed.
Lemma declared_rows fs os vs ovs n k t v : In (n, k, t, v) (field_rows fs vs ++ oneof_rows os ovs) -> In (n, k, t) (declared fs os).
Proof.
  intros H. unfold declared. apply in_or_app. apply in_app_iff in H. destruct H as [H|H]; [left; eapply field_rows_in; eauto|right].
  apply oneof_rows_in in H. destruct H as (-> & i & ms & o & H1 & _ & H2 & _). apply in_flat_map. exists ms. split; [eapply nth_error_In; eauto|].
  apply in_map_iff. exists (n, t). auto.
Qed.

Lemma present_bit : present [1] 0 = true /\ present [0] 0 = false.
Proof. split; reflexivity. Qed.
Lemma field_rows_ok fs pres : forall oi xs, all2 (fun '(_, k, t) => wt_field k (wt t)) fs xs -> Forall row_ok (field_rows fs (view_fields (vtab fs) oi pres xs)).
Proof.
  induction fs as [|[[n k] t] fs IH]; intros oi [|x xs] Hw; cbn [all2] in Hw; try contradiction; [constructor|]. destruct Hw as [Hx Hw].
  cbn [vtab map view_fields field_rows]. constructor; [|now apply IH]. exists oi, pres, x. auto.
Qed.
Lemma oneof_rows_ok os : NoDup (flat_map (map fst) os) -> all (all (fun '(_, t) => desc_ok t)) os -> forall ovs, all2 (fun ms => wt_oneof (map (fun '(num, t) => (num, wt t)) ms)) os ovs ->
  Forall row_ok (oneof_rows os (view_oneofs (votab os) ovs)).
Proof.
  induction os as [|ms os IH]; intros Hnd Hd [|o ovs] Hw; cbn [all2] in Hw; try contradiction; [constructor|]. destruct Hw as [Ho Hw]. cbn [flat_map] in Hnd. cbn [all] in Hd. destruct Hd as [Hd1 Hd2].
  cbn [votab map view_oneofs oneof_rows]. apply Forall_app. split; [|apply IH; auto; now apply NoDup_app_r in Hnd].
  apply Forall_forall. intros [[[n k] t] v] Hin. apply in_map_iff in Hin. destruct Hin as ([m u] & E & Hin). injection E as <- <- <- <-.
  apply all_Forall in Hd1. pose proof (proj1 (Forall_forall _ _) Hd1 _ Hin) as Hdu. cbn in Hdu.
  assert (Hl : lookup ms m = Some u).
  { apply lookup_NoDup; [|exact Hin]. clear -Hnd. induction (map fst ms) as [|y l IHl]; [constructor|]. cbn [app] in Hnd. inversion Hnd; subst.
    constructor; [rewrite in_app_iff in *; tauto|auto]. }
  unfold wt_oneof in Ho. rewrite (lookup_map wt) in Ho. unfold view_oneof. rewrite (lookup_map view).
  assert (Hunset : row_ok (m, KOpt, u, SvNone)).
  { exists 0, [0], (default_value u). split; [cbn [wt_field]; apply (default_ok u Hdu)|]. cbn [view_field]. now rewrite (proj2 present_bit). }
  destruct (lookup ms (fst o)) as [t|] eqn:El; cbn [option_map fst snd] in *.
  - destruct (Z.eqb_spec m (fst o)) as [->|]; [|exact Hunset]. rewrite El in Hl. injection Hl as ->.
    exists 0, [1], (snd o). split; [exact Ho|]. cbn [view_field]. now rewrite (proj1 present_bit).
  - destruct (m =? 0); exact Hunset.
Qed.

(** Members of one oneof of the sender are not both set. *)
Lemma oneof_rows_given os : NoDup (flat_map (map fst) os) -> forall ovs ms n1 k1 t1 v1 x1 n2 k2 t2 v2 x2, In ms os -> In n1 (map fst ms) -> In n2 (map fst ms) ->
  In (n1, k1, t1, v1) (oneof_rows os ovs) -> In (n2, k2, t2, v2) (oneof_rows os ovs) -> given k1 v1 = Some x1 -> given k2 v2 = Some x2 -> n1 = n2.
Proof.
  intros Hnd ovs ms n1 k1 t1 v1 x1 n2 k2 t2 v2 x2 Hms H1 H2 R1 R2 G1 G2. apply In_nth_error in Hms. destruct Hms as (i & Hi).
  assert (Hrow : forall n k t v x, In n (map fst ms) -> In (n, k, t, v) (oneof_rows os ovs) -> given k v = Some x -> exists o, nth_error ovs i = Some o /\ n = fst o).
  { intros n k t v x Hn R G. apply oneof_rows_in in R. destruct R as (-> & i0 & ms0 & o & Hi0 & Ho & Hin & Ev).
    assert (i0 = i) by (eapply NoDup_member; eauto; apply in_map_iff; exists (n, t); auto). subst i0. exists o. split; [exact Ho|].
    destruct (Z.eqb_spec n (fst o)); [assumption|]. subst v. discriminate. }
  destruct (Hrow _ _ _ _ _ H1 R1 G1) as (o1 & E1 & ->). destruct (Hrow _ _ _ _ _ H2 R2 G2) as (o2 & E2 & ->). congruence.
Qed.

(** ** What is carried, as a whole *)
Lemma carry_tab fs os fs' os' vs ovs : NoDup (flat_map (map fst) os) -> desc_ok (EMsg fs' os') ->
  let w := carry (EMsg fs os) (EMsg fs' os') (norm (EMsg fs os) (SvM vs ovs)) in
  let rs := map nrow (field_rows fs vs ++ oneof_rows os ovs) in
  fits (EMsg fs' os') w = fitS fs' rs && fitSo os' rs
  /\ w = SvM (St fs' rs) (Sto os' rs).
Proof.
  intros Hnd (_ & _ & Hd & _) w rs.
  assert (Ew : w = SvM (St fs' rs) (Sto os' rs)).
  { subst w. rewrite norm_tab. cbn [carry]. rewrite field_rows_norm, oneof_rows_norm, <- map_app by exact Hnd. fold rs. f_equal.
    unfold Sto. apply map_ext. intros ms'. destruct (sent_member rs (map fst ms')) as [[[n t] x]|]; [|reflexivity].
    cbn [fino]. rewrite (lookup_map (fun u' u => carry u u')). destruct (lookup ms' n); reflexivity. }
  split; [|exact Ew]. rewrite Ew. clear w Ew. clearbody rs. cbn [fits]. f_equal.
  - induction fs' as [|[[n k'] t'] fs' IH]; [reflexivity|]. cbn [all] in Hd. destruct Hd as [[Hdt Hc] Hd]. unfold fitS, St in *. cbn [map fits_fields forallb].
    rewrite (IH Hd). f_equal. unfold fit1. destruct (sent rs n) as [[[k u] x]|]; [reflexivity|]. cbn [fin]. apply fits_field_default; [now apply fits_default|].
    destruct k'; auto. unfold capacity_ok in Hc. lia.
  - clear Hd. induction os' as [|ms' os' IH]; [reflexivity|]. unfold fitSo, Sto in *. cbn [map fits_oneofs forallb]. rewrite IH. f_equal. unfold fit1o, fino, fits_oneof.
    destruct (sent_member rs (map fst ms')) as [[[n u] x]|]; [|cbn [fst snd]; destruct (lookup _ 0); reflexivity].
    destruct (lookup ms' n) as [t'|] eqn:El; cbn [fst snd].
    + rewrite (lookup_map fits), El. reflexivity.
    + destruct (lookup _ 0); reflexivity.
Qed.

(** A field that is not written. *)
Lemma field_nil num k t k' t' oi pres x : nil_ok t -> version t t' -> same_kind k k' -> desc_ok t' -> wt_field k (wt t) x ->
  let v := view_field k (view t) oi pres x in
  enc_field num k t (enc t) v = [] ->
  carry_field k k' (carry t t') (sdefault t') (norm_field k t (norm t) v) = sdefault_field k' (sdefault t').
Proof.
  intros Hn Hver Hk Hd' Hw v He. pose proof (proj1 (field_blank num k t oi pres x (blank_all t) Hw) He) as Hb. fold v in Hb.
  destruct k as [| |max|]; cbn [wt_field] in Hw; subst v; cbn [view_field] in *.
  - destruct (plain_row num t x (blank_all t) Hw) as [(_ & _ & E3)|(E1 & E2 & _)]; [|congruence].
    assert (Hp : carry t t' (norm_field KPlain t (norm t) (view t x)) = sdefault t').
    { destruct t as [sc| |]; [rewrite E3; inversion Hver; subst; apply carry_zero|destruct E3 as [E4 ->]; now apply Hn..]. }
    destruct k'; try contradiction; cbn [carry_field sdefault_field]; [exact Hp|]. now rewrite Hb.
  - destruct (present pres oi); cbn [norm_field blank] in *; [discriminate|]. destruct k'; try contradiction; reflexivity.
  - destruct k' as [| |max'|]; try contradiction. destruct x as [| | |len data|]; try contradiction. cbn [norm_field blank carry_field sdefault_field] in *.
    destruct (map (view t) (firstn (Z.to_nat len) data)); [reflexivity|discriminate].
  - destruct k'; try contradiction; reflexivity.
Qed.

Lemma sent_nrow rs n k t x : sent (map nrow rs) n = Some (k, t, x) -> exists v, In (n, k, t, v) rs /\ x = norm_field k t (norm t) v.
Proof.
  intros H. apply sent_in in H. apply in_map_iff in H. destruct H as ([[[m j] u] v] & E & Hin). cbn [nrow] in E. injection E as -> -> -> <-. eauto.
Qed.
Lemma enc_rows_nil rs n k t v : enc_rows rs = [] -> In (n, k, t, v) rs -> enc_field n k t (enc t) v = [].
Proof.
  induction rs as [|[[[m j] u] w] rs IH]; intros He Hin; [contradiction|]. unfold enc_rows in *. cbn [flat_map] in He. apply app_eq_nil in He. destruct He as [He1 He2].
  destruct Hin as [E|Hin]; [injection E as -> -> -> ->; exact He1|auto].
Qed.

(** The rows of an object. *)
Lemma object_rows fs os pres xs ovs : let t := EMsg fs os in desc_ok t -> wt t (VM pres xs ovs) ->
  exists rs, (forall fs' os', desc_ok (EMsg fs' os') -> let w := carry t (EMsg fs' os') (norm t (view t (VM pres xs ovs))) in
       fits (EMsg fs' os') w = fitS fs' (map nrow rs) && fitSo os' (map nrow rs) /\ w = SvM (St fs' (map nrow rs)) (Sto os' (map nrow rs)))
    /\ enc t (view t (VM pres xs ovs)) = enc_rows rs /\ Forall row_ok rs /\ map rnum rs = field_numbers fs os
    /\ (forall n k u v, In (n, k, u, v) rs -> In (n, k, u) (declared fs os))
    /\ (forall ms n1 k1 t1 v1 x1 n2 k2 t2 v2 x2, In ms os -> In n1 (map fst ms) -> In n2 (map fst ms) ->
         In (n1, k1, t1, v1) (map nrow rs) -> In (n2, k2, t2, v2) (map nrow rs) -> given k1 v1 = Some x1 -> given k2 v2 = Some x2 -> n1 = n2).
Proof.
  intros t Hd Hw. subst t. pose proof Hd as (Hnd & _ & Hdf & Hdo). cbn [wt] in Hw. destruct Hw as (_ & _ & Hw1 & Hw2).
  assert (Hndo : NoDup (flat_map (map fst) os)) by (unfold field_numbers in Hnd; now apply NoDup_app_r in Hnd).
  exists (field_rows fs (view_fields (vtab fs) 0 pres xs) ++ oneof_rows os (view_oneofs (votab os) ovs)).
  assert (L1 : length fs = length (view_fields (vtab fs) 0 pres xs)).
  { clear -Hw1. revert xs Hw1. generalize 0. induction fs as [|[[n k] t] fs IH]; intros z [|x xs] Hw; cbn [all2] in Hw; try contradiction; [reflexivity|].
    cbn [vtab map view_fields length]. f_equal. now apply IH. }
  assert (L2 : length os = length (view_oneofs (votab os) ovs)).
  { clear -Hw2. revert ovs Hw2. induction os as [|ms os IH]; intros [|o ovs] Hw; cbn [all2] in Hw; try contradiction; [reflexivity|].
    cbn [votab map view_oneofs length]. f_equal. now apply IH. }
  assert (Hnum : map rnum (field_rows fs (view_fields (vtab fs) 0 pres xs) ++ oneof_rows os (view_oneofs (votab os) ovs)) = field_numbers fs os)
    by (rewrite map_app, field_rows_num, oneof_rows_num by assumption; reflexivity).
  split; [|split; [|split; [|split; [|split]]]].
  - intros fs' os' Hd'. rewrite view_tab. now apply carry_tab.
  - rewrite view_tab, enc_tab. unfold enc_rows. rewrite flat_map_app. fold (enc_rows (field_rows fs (view_fields (vtab fs) 0 pres xs))).
    fold (enc_rows (oneof_rows os (view_oneofs (votab os) ovs))). now rewrite field_rows_enc, oneof_rows_enc.
  - apply Forall_app. split; [now apply field_rows_ok|now apply oneof_rows_ok].
  - exact Hnum.
  - intros n k u v. apply declared_rows.
  - intros ms n1 k1 t1 v1 x1 n2 k2 t2 v2 x2 Hms H1 H2 R1 R2 G1 G2.
    assert (Hin : forall n k t v, In n (map fst ms) -> In (n, k, t, v) (map nrow (field_rows fs (view_fields (vtab fs) 0 pres xs) ++ oneof_rows os (view_oneofs (votab os) ovs))) ->
              In (n, k, t, v) (oneof_rows os (norm_oneofs (notab os) (view_oneofs (votab os) ovs)))).
    { intros n k t v Hn R. rewrite map_app in R. apply in_app_iff in R. destruct R as [R|R]; [|now rewrite oneof_rows_norm].
      exfalso. rewrite <- field_rows_norm in R. apply field_rows_in in R. apply (NoDup_app_disjoint _ _ n Hnd).
      - apply in_map_iff. exists (n, k, t). auto.
      - apply in_flat_map. eauto. }
    eapply (oneof_rows_given os Hndo _ ms n1 k1 t1 v1 x1 n2 k2 t2 v2 x2); eauto.
Qed.

Lemma nil_all t : desc_ok t -> nil_ok t.
Proof.
  induction t as [sc|st max|fs os Hf Ho] using ety_ind'; intros Hd v t' Hver Hw Hd' He.
  - destruct v as [z| | | |]; try contradiction. exfalso. eapply scalar_enc_nonempty; eauto.
  - inversion Hver; subst. destruct (bytes_view _ _ _ Hw) as (b & Eb & _). rewrite Eb in He |- *. cbn in He. subst b. reflexivity.
  - inversion Hver as [| |? ? fs' os' V1 V2]; subst. destruct v as [| | | |pres xs ovs]; try contradiction.
    destruct (object_rows fs os pres xs ovs Hd Hw) as (rs & Hc & Ee & Hok & _ & Hdecl & _). destruct (Hc fs' os' Hd') as [_ E2]. rewrite Ee in He.
    assert (Hrec : forall n k u, In (n, k, u) (declared fs os) -> nil_ok u).
    { intros n k u Hin. unfold declared in Hin. pose proof Hd as (_ & _ & Hdf & Hdo). apply in_app_iff in Hin. destruct Hin as [Hin|Hin].
      - pose proof (proj1 (Forall_forall _ _) Hf _ Hin) as H. apply H. apply all_Forall in Hdf. pose proof (proj1 (Forall_forall _ _) Hdf _ Hin) as H'. cbn in H'. tauto.
      - apply in_flat_map in Hin. destruct Hin as (ms & Hms & Hin). apply in_map_iff in Hin. destruct Hin as ([m u0] & E & Hin). injection E as <- <- <-.
        pose proof (proj1 (Forall_forall _ _) Ho _ Hms) as H. pose proof (proj1 (Forall_forall _ _) H _ Hin) as H1. apply H1.
        apply all_Forall in Hdo. pose proof (proj1 (Forall_forall _ _) Hdo _ Hms) as H2. cbn in H2. apply all_Forall in H2. exact (proj1 (Forall_forall _ _) H2 _ Hin). }
    rewrite E2, sdefault_tab. f_equal.
    + unfold St, sdtab. apply map_ext_in. intros [[n k'] t'] Hin'. destruct (sent (map nrow rs) n) as [[[k u] x]|] eqn:Es; [|reflexivity]. cbn [fin].
      apply sent_nrow in Es. destruct Es as (v & Hin & ->). pose proof (proj1 (Forall_forall _ _) Hok _ Hin) as (oi & pr & y & Hy & Ey).
      assert (Hin2 : In (n, k', t') (declared fs' os')) by (unfold declared; apply in_or_app; now left).
      destruct (V1 _ _ _ _ _ (Hdecl _ _ _ _ Hin) Hin2) as [Hk Hv].
      apply In_nth_error in Hin'. destruct Hin' as (i & Hi). destruct (desc_field _ _ _ _ _ _ Hd' Hi) as (Hdt' & _ & Hcap).
      pose proof (enc_rows_nil _ _ _ _ _ He Hin) as Hey. rewrite Ey in Hey |- *. eapply field_nil; eauto.
    + unfold Sto. apply map_ext_in. intros ms' Hms'. destruct (sent_member (map nrow rs) (map fst ms')) as [[[n u] x]|] eqn:Es; [|reflexivity]. exfalso.
      apply sent_member_in in Es. destruct Es as (k & nv & Hin & Hg & Ha). apply in_map_iff in Hin. destruct Hin as ([[[m j] u0] v] & E & Hin). cbn [nrow] in E.
      injection E as -> -> -> <-. pose proof (proj1 (Forall_forall _ _) Hok _ Hin) as (oi & pr & y & Hy & Ey).
      pose proof (enc_rows_nil _ _ _ _ _ He Hin) as Hey. subst v.
      assert (Hk : k = KPlain \/ k = KOpt) by (destruct k; auto; discriminate).
      assert (Hwy : wt u y) by (destruct Hk as [-> | ->]; exact Hy).
      destruct (given_row n k u oi pr y Hk Hwy) as [(_ & E2')|(E1 & _)]; [congruence|]. rewrite Hey in E1. symmetry in E1.
      destruct u; cbn [enc_elem] in E1; apply app_eq_nil in E1; destruct E1 as [E1 _]; now apply tag_nonempty in E1.
Qed.

Lemma message_read fs os fs' os' v bd : let t := EMsg fs os in let t' := EMsg fs' os' in
  Forall (fun f : fdesc => msg_ok (snd f)) fs -> Forall (Forall (fun m : Z * ety => msg_ok (snd m))) os ->
  version t t' -> wt t v -> desc_ok t -> desc_ok t' -> zlen (enc t (view t v)) < 2 ^ 32 ->
  outcome (fits t' (carry t t' (norm t (view t v)))) (mread false bd fs' os' (sdefault t') (enc t (view t v))) (carry t t' (norm t (view t v))) [].
Proof.
  intros t t' Hf Ho Hver Hw Hd Hd' Hz. subst t t'. destruct v as [| | | |pres xs ovs]; try contradiction.
  destruct (object_rows fs os pres xs ovs Hd Hw) as (rs & Hc & Ee & Hok & Hnum & Hdecl & Hex). destruct (Hc fs' os' Hd') as [E1 E2]. rewrite E1, E2, Ee in *.
  inversion Hver as [| |? ? ? ? V1 V2]; subst. pose proof Hd as (Hnd & Hrange & Hdf & Hdo). apply all_Forall in Hrange.
  assert (Hg : goes bd fs' os' (fitS fs' (map nrow rs) && fitSo os' (map nrow rs)) (SvM (St fs' (map nrow [])) (Sto os' (map nrow []))) (enc_rows rs)
                 (SvM (St fs' (map nrow rs)) (Sto os' (map nrow rs)))).
  { apply (rows_go bd fs' os' rs Hd').
    - now rewrite Hnum.
    - intros num k t v k' t' Hin. apply V1. eauto.
    - intros ms' n1 k1 t1 v1 x1 n2 k2 t2 v2 x2 Hms' H1 H2 R1 R2 G1 G2.
      assert (Hn : forall n k t v, In (n, k, t, v) (map nrow rs) -> In n (field_numbers fs os)).
      { intros n k t v R. rewrite <- Hnum, <- rnum_nrow. apply in_map_iff. eexists. split; [|exact R]. reflexivity. }
      destruct (V2 ms' n1 n2 Hms' H1 H2) as [E|(ms & Hms & M1 & M2)]; eauto.
    - reflexivity.
    - exact Hok.
    - apply Forall_forall. intros [[[n k] t] v] Hin. apply Hdecl in Hin. split.
      { pose proof (proj1 (Forall_forall _ _) Hrange n) as H. apply H. unfold declared, field_numbers in *. apply in_or_app. apply in_app_iff in Hin. destruct Hin as [Hin|Hin].
        - left. apply in_map_iff. exists (n, k, t). auto.
        - right. apply in_flat_map in Hin. destruct Hin as (ms & Hms & Hin). apply in_flat_map. exists ms. split; [exact Hms|].
          apply in_map_iff in Hin. destruct Hin as ([m u] & E & Hin). injection E as <- <- <-. apply in_map_iff. exists (m, u). auto. }
      assert (Hd2 : desc_ok t /\ msg_ok t).
      { unfold declared in Hin. apply in_app_iff in Hin. destruct Hin as [Hin|Hin].
        - split; [|exact (proj1 (Forall_forall _ _) Hf _ Hin)]. apply all_Forall in Hdf. pose proof (proj1 (Forall_forall _ _) Hdf _ Hin) as H'. cbn in H'. tauto.
        - apply in_flat_map in Hin. destruct Hin as (ms & Hms & Hin). apply in_map_iff in Hin. destruct Hin as ([m u0] & E & Hin). injection E as <- <- <-.
          split; [|exact (proj1 (Forall_forall _ _) (proj1 (Forall_forall _ _) Ho _ Hms) _ Hin)].
          apply all_Forall in Hdo. pose proof (proj1 (Forall_forall _ _) Hdo _ Hms) as H2. cbn in H2. apply all_Forall in H2. exact (proj1 (Forall_forall _ _) H2 _ Hin). }
      destruct Hd2. split; [assumption|]. split; [assumption|]. now apply nil_all.
    - exact Hz.
    - cbn [map]. apply andb_true_iff. split; [unfold fitS; apply forallb_forall; now intros [[n k'] t'] _|unfold fitSo; apply forallb_forall; intros ms' _; reflexivity]. }
  assert (Est : SvM (St fs' (map nrow [])) (Sto os' (map nrow [])) = sdefault (EMsg fs' os')).
  { rewrite sdefault_tab. f_equal. }
  rewrite Est in Hg. specialize (Hg []). rewrite app_nil_r in Hg. unfold outcome. destruct (fitS fs' (map nrow rs) && fitSo os' (map nrow rs)); [|exact Hg].
  apply Hg. apply mread_end. apply varint_cut; [cbn; lia|constructor].
Qed.

Theorem msg_all t : msg_ok t.
Proof.
  induction t as [sc|st max|fs os Hf Ho] using ety_ind'; intros v t' Hver Hw Hd Hd' Hz fs' os' ->; [inversion Hver..|].
  apply message_read; auto.
Qed.

(** ** Sender and receiver *)
Lemma version_round_trip fs os fs' os' v v0 : let t := EMsg fs os in let t' := EMsg fs' os' in
  desc_ok t -> desc_ok t' -> version t t' -> wt t v -> zlen (enc t (view t v)) < 2 ^ 32 -> fresh t' v0 ->
  let w := carry t t' (norm t (view t v)) in
  forall cap b c n b', wfix_rel cap b c (Some n) -> serialize t v _ (wfix_ops cap) b = Done (NoErrors, b') ->
  exists bytes, wfix_content b' = wfix_content b ++ bytes /\
  forall S (R : rops S) rel, reader_ok R rel -> forall s, rel s bytes -> forall fuel, (length bytes < fuel)%nat ->
  (fits t' w = true -> exists v' s', deserialize fuel t' S R v0 s = Done (NoErrors, v', s')
     /\ view t' v' = w /\ (no_neg_zero t (view t v) -> view t' v' = carry t t' (view t v)))
  /\ (fits t' w = false -> exists v' s', deserialize fuel t' S R v0 s = Done (ArrayFull, v', s') /\ wt t' v').
Proof.
  intros t t' Hd Hd' Hver Hw Hz H0 w cap b c n b' Hr E. exists (enc t (view t v)). split; [eapply serialize_is_enc; eauto|].
  intros S R rel ok s Hs fuel Hfu. destruct (fresh_good _ _ Hd' H0) as (Hw0 & Hc0 & Hv0).
  pose proof (message_read fs os fs' os' v false ltac:(apply Forall_forall; intros; apply msg_all)
    ltac:(apply Forall_forall; intros; apply Forall_forall; intros; apply msg_all) Hver Hw Hd Hd' Hz) as H. fold t t' w in H. unfold outcome in H.
  split; intros Ef; rewrite Ef in H.
  - rewrite <- Hv0 in H. destruct (decode_reads fs' os' v0 false false _ _ _ _ Hd' Hw0 Hc0 H S R rel ok ltac:(discriminate) s Hs fuel Hfu) as (v' & s' & E' & _ & _ & _ & _ & Hv).
    exists v', s'. split; [exact E'|]. specialize (Hv (or_intror eq_refl)). split; [exact Hv|]. intros Hn. etransitivity; [exact Hv|]. subst w. now rewrite norm_id.
  - destruct H as (n0 & r & H). rewrite <- Hv0 in H. destruct (decode_reads fs' os' v0 false false _ _ _ _ Hd' Hw0 Hc0 H S R rel ok ltac:(discriminate) s Hs fuel Hfu) as (v' & s' & E' & _ & Hw' & _).
    exists v', s'. auto.
Qed.
