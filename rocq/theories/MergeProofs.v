(** Merging a serialized message into an object (C86). *)
From Verif Require Import Base Buffers Wire Schema Fields Message Spec Contracts BitLemmas
  ReadProofs ScalarProofs BufferProofs Struct SerProofs Tables DecodeProofs RoundTrip DecodeProps SerProps SpecRead ReadAny ReadTotal MalformedProps
  SpecRetype RetypeProofs SpecVersions VersionProofs SpecMerge.
From Coq Require Import ZifyBool ZifyNat ZifyN.
Ltac Zify.zify_post_hook ::= Z.div_mod_to_equations.

Definition mtab (fs : list fdesc) := map (fun '(_, k, t) => (k, t, merge t)) fs.
Definition motab (os : list odesc) := map (map (fun '(num, t) => (num, (t, merge t)))) os.
Definition ftab (fs : list fdesc) := map (fun '(_, k, t) => (k, fits t)) fs.
Definition fotab (os : list odesc) := map (map (fun '(num, t) => (num, fits t))) os.
Lemma merge_tab fs os xs oxs ys oys : merge (EMsg fs os) (SvM xs oxs) (SvM ys oys) = SvM (merge_fields (mtab fs) xs ys) (merge_oneofs (motab os) oxs oys).
Proof. reflexivity. Qed.
Lemma fits_tab fs os xs oxs : fits (EMsg fs os) (SvM xs oxs) = fits_fields (ftab fs) xs && fits_oneofs (fotab os) oxs.
Proof. reflexivity. Qed.

(** What the getters of some valid object show. *)
Definition seen (t : ety) (x : sval) : Prop := exists v, wt t v /\ x = view t v.
Definition seen_field (k : fkind) (t : ety) (x : sval) : Prop :=
  match k with
  | KPlain => seen t x
  | KOpt => x = SvNone \/ exists y, x = SvSome y /\ seen t y
  | KRep max => exists l, x = SvR l /\ Forall (seen t) l /\ zlen l <= max
  | KRecursive => x = SvNone
  end.
Definition seen_oneof (ms : odesc) (o : Z * sval) : Prop :=
  o = (0, SvNone) \/ exists num t y, lookup ms num = Some t /\ o = (num, SvSome y) /\ seen t y.

Lemma seen_default t : desc_ok t -> seen t (sdefault t).
Proof. intros Hd. destruct (default_ok t Hd) as (Hw & _ & Hv). exists (default_value t). auto. Qed.
Lemma seen_fields fs pres : forall oi vs, all2 (fun '(_, k, t) => wt_field k (wt t)) fs vs ->
  all2 (fun '(_, k, t) => seen_field k t) fs (view_fields (vtab fs) oi pres vs).
Proof.
  induction fs as [|[[num k] t] fs IH]; intros oi [|v vs] H; cbn [all2] in H; try contradiction; [exact I|]. destruct H as [Hv H].
  cbn [vtab map view_fields all2]. split; [|apply IH; exact H]. destruct k as [| |max|]; cbn [wt_field view_field seen_field] in *.
  - exists v. auto.
  - destruct (present pres oi); [right|left; reflexivity]. eexists. split; [reflexivity|]. exists v. auto.
  - destruct v as [| | |len data|]; try contradiction. destruct Hv as (Hl & Hz & Hd). apply all_Forall in Hd. eexists. split; [reflexivity|]. split.
    + apply Forall_map. eapply Forall_impl; [|apply Forall_firstn; exact Hd]. intros a Ha. exists a. auto.
    + rewrite zlen_map, zlen_firstn. lia.
  - reflexivity.
Qed.
Lemma seen_oneofs os : forall vs, all2 (fun ms => wt_oneof (map (fun '(num, t) => (num, wt t)) ms)) os vs ->
  all2 seen_oneof os (view_oneofs (votab os) vs).
Proof.
  induction os as [|ms os IH]; intros [|o vs] H; cbn [all2] in H; try contradiction; [exact I|]. destruct H as [Ho H].
  cbn [votab map view_oneofs all2]. split; [|apply IH; exact H]. unfold wt_oneof, view_oneof, seen_oneof in *. rewrite (lookup_map wt) in Ho. rewrite (lookup_map view).
  destruct (lookup ms (fst o)) as [t|] eqn:E; [right|left; reflexivity]. exists (fst o), t, (view t (snd o)). split; [exact E|]. split; [reflexivity|]. exists (snd o). auto.
Qed.
Lemma seen_msg fs os x : seen (EMsg fs os) x -> exists xs oxs, x = SvM xs oxs /\ all2 (fun '(_, k, t) => seen_field k t) fs xs /\ all2 seen_oneof os oxs.
Proof.
  intros (v & Hw & ->). destruct v as [| | | |pres vs ovs]; try contradiction. cbn [wt] in Hw. destruct Hw as (_ & _ & H1 & H2).
  rewrite view_tab. do 2 eexists. split; [reflexivity|]. split; [now apply seen_fields|now apply seen_oneofs].
Qed.

Lemma seen_fits t : forall x, seen t x -> fits t x = true.
Proof.
  induction t as [sc|st max|fs os Hf Ho] using ety_ind'; intros x Hx.
  - destruct Hx as ([] & Hw & ->); try contradiction. reflexivity.
  - destruct Hx as (v & Hw & ->). destruct (bytes_view _ _ _ Hw) as (b & -> & _ & Hl). cbn. lia.
  - destruct (seen_msg _ _ _ Hx) as (xs & oxs & -> & H1 & H2). rewrite fits_tab. apply andb_true_iff. split.
    + clear H2 Ho Hx. revert xs H1. induction Hf as [|[[num k] t] fs H Hf IH]; intros [|x xs] H1; cbn [all2] in H1; try contradiction; [reflexivity|].
      destruct H1 as [Hx H1]. cbn [ftab map fits_fields]. apply andb_true_iff. split; [|apply IH; exact H1]. cbn [snd] in H.
      destruct k as [| |max|]; cbn [seen_field fits_field] in *.
      * now apply H.
      * destruct Hx as [->|(y & -> & Hy)]; [reflexivity|now apply H].
      * destruct Hx as (l & -> & Hl & Hz). apply andb_true_iff. split; [lia|]. apply forallb_forall. intros y Hy. apply H. exact (proj1 (Forall_forall _ _) Hl y Hy).
      * now subst.
    + clear H1 Hf Hx. revert oxs H2. induction Ho as [|ms os H Ho IH]; intros [|o oxs] H2; cbn [all2] in H2; try contradiction; [reflexivity|].
      destruct H2 as [Hx H2]. cbn [fotab map fits_oneofs]. apply andb_true_iff. split; [|apply IH; exact H2]. unfold fits_oneof.
      destruct Hx as [->|(num & t & y & El & -> & Hy)]; cbn [fst snd]; rewrite (lookup_map fits).
      * destruct (lookup ms 0); reflexivity.
      * rewrite El. apply lookup_In in El. apply (proj1 (Forall_forall _ _) H _ El). exact Hy.
Qed.

Lemma enc_elem_cons num t p : enc_elem num t p <> [].
Proof. intros H. destruct t; cbn [enc_elem] in H; apply app_eq_nil in H; destruct H as [H _]; now apply tag_nonempty in H. Qed.

(** A field that writes nothing changes nothing. *)
Definition blank_kept (t : ety) : Prop := match t with
  | EMsg _ _ => forall v x, wt t v -> seen t x -> enc t (view t v) = [] -> merge t x (view t v) = x
  | _ => True
  end.
Lemma field_blank_merge num k t oi pres y x :
  blank_kept t -> wt_field k (wt t) y -> seen_field k t x ->
  enc_field num k t (enc t) (view_field k (view t) oi pres y) = [] -> merge_field k t (merge t) x (view_field k (view t) oi pres y) = x.
Proof.
  intros IH Hw Hx E. destruct k as [| |max|]; cbn [wt_field view_field seen_field] in *.
  - destruct t as [sc|st max|fs os].
    + destruct y as [z| | | |]; try contradiction. cbn [view enc_field merge_field] in *. destruct (is_zero sc z); [reflexivity|]. now apply enc_elem_cons in E.
    + destruct (bytes_view _ _ _ Hw) as (b & Eb & _). rewrite Eb in *. destruct b; [reflexivity|]. cbn [enc_field enc] in E. now apply enc_elem_cons in E.
    + specialize (IH y x Hw Hx). destruct y as [| | | |pres' vs ovs]; try contradiction. rewrite view_tab in *. unfold enc_field in E. cbn [merge_field].
      destruct (enc (EMsg fs os) _); [now apply IH|]. now apply enc_elem_cons in E.
  - destruct (present pres oi); [|destruct x; reflexivity]. cbn [enc_field] in E. now apply enc_elem_cons in E.
  - destruct y as [| | |len data|]; try contradiction. destruct Hx as (l & -> & _). cbn [merge_field].
    destruct (map (view t) (firstn (Z.to_nat len) data)) as [|z zs]; [cbn [map]; now rewrite app_nil_r|]. exfalso. cbn [enc_field] in E. destruct t; cbn [flat_map] in E.
    + apply app_eq_nil in E. destruct E as [E _]. now apply tag_nonempty in E.
    + apply app_eq_nil in E. destruct E as [E _]. now apply enc_elem_cons in E.
    + apply app_eq_nil in E. destruct E as [E _]. now apply enc_elem_cons in E.
  - reflexivity.
Qed.

Lemma blank_kept_all t : blank_kept t.
Proof.
  induction t as [sc|st max|fs os Hf Ho] using ety_ind'; [exact I..|]. intros v x Hw Hx E.
  destruct (seen_msg _ _ _ Hx) as (xs & oxs & -> & H1 & H2). destruct v as [| | | |pres ys oys]; try contradiction. rewrite view_tab in *. rewrite enc_tab in E.
  apply app_eq_nil in E. destruct E as [E1 E2]. cbn [wt] in Hw. destruct Hw as (_ & _ & W1 & W2). rewrite merge_tab. f_equal.
  - clear - Hf H1 W1 E1. revert E1. generalize 0 as oi. revert xs ys H1 W1. induction Hf as [|[[num k] t] fs H Hf IH]; intros [|x xs] [|y ys] H1 W1 oi E1; cbn [all2] in *; try contradiction; [reflexivity|].
    destruct H1 as [Hx H1], W1 as [Hy W1]. cbn [vtab etab mtab map view_fields enc_fields merge_fields] in *. apply app_eq_nil in E1. destruct E1 as [E1 E2].
    f_equal; [|eapply IH; eauto]. eapply field_blank_merge; eauto.
  - clear - H2 W2 E2. revert oxs oys H2 W2 E2. induction os as [|ms os IH]; intros [|x xs] [|y ys] H2 W2 E2; cbn [all2] in *; try contradiction; [reflexivity|].
    destruct H2 as [Hx H2], W2 as [Hy W2]. cbn [votab eotab motab map view_oneofs enc_oneofs merge_oneofs] in *. apply app_eq_nil in E2. destruct E2 as [E1 E2].
    f_equal; [|eapply IH; eauto]. unfold merge_oneof, enc_oneof, view_oneof in *. rewrite (lookup_map view) in *. destruct (lookup ms (fst y)) as [t|] eqn:E; cbn [fst snd] in *.
    + rewrite (lookup_map (fun t => (t, enc t))), E in E1. now apply enc_elem_cons in E1.
    + now destruct (lookup (map (fun '(num, t) => (num, (t, merge t))) ms) 0) as [[? ?]|].
Qed.

Lemma enc_field_view_msg num fs os y : wt (EMsg fs os) y -> enc_field num KPlain (EMsg fs os) (enc (EMsg fs os)) (view (EMsg fs os) y) <> [] ->
  enc_field num KPlain (EMsg fs os) (enc (EMsg fs os)) (view (EMsg fs os) y) = enc_elem num (EMsg fs os) (enc (EMsg fs os) (view (EMsg fs os) y)).
Proof. intros Hw. unfold enc_field. now destruct (enc (EMsg fs os) (view (EMsg fs os) y)). Qed.

Section Receiver.
Variable bd : bool.
Local Notation eread := (eread false bd).
Local Notation rread := (rread false bd).
Local Notation fread := (fread false bd).
Local Notation goes := (goes bd).

Definition merge_ok (t : ety) : Prop := forall v x, wt t v -> seen t x -> desc_ok t -> zlen (enc t (view t v)) < 2 ^ 32 ->
  forall fs os, t = EMsg fs os ->
  outcome (fits t (merge t x (view t v))) (mread false true fs os x (enc t (view t v))) (merge t x (view t v)) [].

Lemma elem_merge t v x : merge_ok t -> wt t v -> seen t x -> desc_ok t -> zlen (enc t (view t v)) < 2 ^ 32 ->
  forall tail, outcome (fits t (merge t x (view t v))) (eread t x (enc_rec t (enc t (view t v)) ++ tail)) (merge t x (view t v)) tail.
Proof.
  intros Hm Hw Hx Hd Hz tail. pose proof (zlen_nonneg (enc t (view t v))). destruct t as [sc|st max|fs os].
  - destruct v as [z| | | |]; try contradiction. cbn. constructor. constructor. now apply scalar_enc_dec.
  - destruct (bytes_view _ _ _ Hw) as (b & E & Hb & Hlen). rewrite E in *. cbn [enc enc_rec fits merge] in *. unfold delimited. rewrite <- app_assoc.
    unfold outcome. replace (zlen b <=? max) with true by lia. apply eread_bytes; [apply varint_varint32; lia|assumption].
  - specialize (Hm v x Hw Hx Hd Hz fs os eq_refl). remember (enc (EMsg fs os) (view (EMsg fs os) v)) as p eqn:Ep.
    cbn [enc_rec]. unfold delimited. rewrite <- app_assoc. assert (Hl : varint32 (varint (zlen p)) (zlen p)) by (apply varint_varint32; lia).
    assert (Hb : bd || (zlen p =? zlen p) = true) by (rewrite Z.eqb_refl; now destruct bd).
    remember (merge _ _ _) as w eqn:Ew. unfold outcome in *. destruct (fits _ w).
    + eapply (eread_msg false bd fs os _ _ (zlen p) p NoErrors _ [] tail); eauto; [now left|]. rewrite Hb. exact Hm.
    + destruct Hm as (n & r & Hm). exists n, (r ++ tail). eapply (eread_msg false bd fs os _ _ (zlen p) p ArrayFull n r tail); eauto; [now left|].
      rewrite Hb. exact Hm.
Qed.

Lemma elem_fmerge t v max old : is_packed t = false -> merge_ok t -> wt t v -> desc_ok t -> zlen (enc t (view t v)) < 2 ^ 32 -> zlen old < max ->
  forall tail, outcome (fits t (merge t (sdefault t) (view t v))) (fread (KRep max) t LENDEL (SvR old) (enc_rec t (enc t (view t v)) ++ tail))
    (SvR (old ++ [merge t (sdefault t) (view t v)])) tail.
Proof.
  intros Hpk Hm Hw Hd Hz Hmax tail. pose proof (zlen_nonneg (enc t (view t v))). destruct t as [sc|st cap|fs os].
  - discriminate.
  - destruct (bytes_view _ _ _ Hw) as (b & E & Hb & Hlen). rewrite E in *. cbn [enc enc_rec fits merge] in *. unfold delimited. rewrite <- app_assoc.
    unfold outcome. replace (zlen b <=? cap) with true by lia. apply fread_rep_bytes; [assumption|apply varint_varint32; lia|assumption].
  - specialize (Hm v _ Hw (seen_default _ Hd) Hd Hz fs os eq_refl). remember (enc (EMsg fs os) (view (EMsg fs os) v)) as p eqn:Ep.
    cbn [enc_rec]. unfold delimited. rewrite <- app_assoc. assert (Hl : varint32 (varint (zlen p)) (zlen p)) by (apply varint_varint32; lia).
    assert (Hb : bd || (zlen p =? zlen p) = true) by (rewrite Z.eqb_refl; now destruct bd).
    remember (merge _ _ _) as w eqn:Ew. unfold outcome in *. destruct (fits _ w).
    + eapply (fread_rep_msg false bd max fs os old _ (zlen p) p NoErrors _ [] tail); eauto; [now left|]. rewrite Hb. exact Hm.
    + destruct Hm as (n & r & Hm). exists (SvR (old ++ [n])), (r ++ tail).
      eapply (fread_rep_msg false bd max fs os old _ (zlen p) p ArrayFull n r tail); eauto; [now left|]. rewrite Hb. exact Hm.
Qed.

Lemma unpacked_merge t num max fs os i ovs : is_packed t = false -> merge_ok t -> desc_ok t -> 1 <= num < 2 ^ 29 ->
  nth_error fs i = Some (num, KRep max, t) ->
  forall l old vals, Forall (wt t) l -> nth_error vals i = Some (SvR old) -> zlen old <= max ->
  zlen (flat_map (fun x => enc_elem num t (enc t x)) (map (view t) l)) < 2 ^ 32 ->
  goes fs os ((zlen old + zlen l <=? max) && forallb (fits t) (map (merge t (sdefault t)) (map (view t) l)))
    (SvM vals ovs) (flat_map (fun x => enc_elem num t (enc t x)) (map (view t) l))
    (SvM (upd i (SvR (old ++ map (merge t (sdefault t)) (map (view t) l))) vals) ovs).
Proof.
  intros Hpk Hm Hd Hnum Hf. induction l as [|x l IH]; intros old vals Hw Ho Hmax Hz; cbn [map flat_map forallb].
  - rewrite app_nil_r, upd_same by exact Ho. replace (zlen old + zlen (@nil value) <=? max) with true by (rewrite zlen_nil; lia). apply goes_nil.
  - inversion Hw as [|? ? Hx Hl]; subst. cbn [map flat_map] in Hz. rewrite zlen_app in Hz. rewrite zlen_cons.
    pose proof (zlen_enc_elem num t (enc t (view t x))). pose proof (zlen_nonneg (enc_elem num t (enc t (view t x)))). pose proof (zlen_nonneg l).
    pose proof (zlen_nonneg (flat_map (fun x => enc_elem num t (enc t x)) (map (view t) l))). pose proof (zlen_nonneg (enc t (view t x))).
    assert (Hwl : elem_wiretype t = LENDEL) by (destruct t; [discriminate|reflexivity..]).
    assert (Hlt : (i < length vals)%nat) by (eapply nth_error_lt; eauto).
    destruct (Z.eq_dec (zlen old) max) as [Hfull|Hroom].
    + replace (zlen old + (1 + zlen l) <=? max) with false by lia. cbn [andb]. intros tail. do 2 eexists. apply mread_stop; [|discriminate].
      rewrite enc_elem_rec, Hwl, <- !app_assoc. eapply rread_field; eauto; [now apply tag_varint32|]. now apply fread_rep_full.
    + set (y := merge t (sdefault t) (view t x)).
      replace ((zlen old + (1 + zlen l) <=? max) && (fits t y && forallb (fits t) (map (merge t (sdefault t)) (map (view t) l))))
        with (fits t y && ((zlen (old ++ [y]) + zlen l <=? max) && forallb (fits t) (map (merge t (sdefault t)) (map (view t) l))))
        by (rewrite zlen_app, zlen_cons, zlen_nil; replace (zlen old + (1 + 0) + zlen l) with (zlen old + (1 + zlen l)) by lia;
            destruct (fits t y), (zlen old + (1 + zlen l) <=? max); reflexivity).
      apply goes_app with (v2 := SvM (upd i (SvR (old ++ [y])) vals) ovs).
      * apply goes_record. intros tail. rewrite enc_elem_rec, Hwl, <- app_assoc.
        pose proof (elem_fmerge t x max old Hpk Hm Hx Hd ltac:(lia) ltac:(lia) tail) as H4. fold y in H4.
        unfold outcome in *. destruct (fits t y).
        -- eapply rread_field; eauto. now apply tag_varint32.
        -- destruct H4 as (n & r & H4). do 2 eexists. eapply rread_field; eauto. now apply tag_varint32.
      * intros _. replace (upd i (SvR (old ++ y :: map (merge t (sdefault t)) (map (view t) l))) vals)
          with (upd i (SvR ((old ++ [y]) ++ map (merge t (sdefault t)) (map (view t) l))) (upd i (SvR (old ++ [y])) vals))
          by (rewrite upd_upd, <- app_assoc; reflexivity).
        apply IH; auto; [now apply nth_error_upd_same| |lia]. rewrite zlen_app, zlen_cons, zlen_nil. lia.
Qed.

Lemma kept_same sc : always_kept sc sc = true.
Proof. destruct sc; reflexivity. Qed.
Lemma fits_scalars' sc l : forallb (fits (EScalar sc)) l = true.
Proof. induction l as [|[] l IH]; cbn; auto. Qed.

Lemma packed_merge sc num max fs os i ovs l old vals : 1 <= num < 2 ^ 29 ->
  nth_error fs i = Some (num, KRep max, EScalar sc) -> nth_error vals i = Some (SvR old) -> zlen old <= max -> Forall (wt (EScalar sc)) l -> l <> [] ->
  zlen (flat_map (enc (EScalar sc)) (map (view (EScalar sc)) l)) < 2 ^ 32 ->
  goes fs os (zlen old + zlen l <=? max) (SvM vals ovs) (tag num LENDEL ++ delimited (flat_map (enc (EScalar sc)) (map (view (EScalar sc)) l)))
    (SvM (upd i (SvR (old ++ map (view (EScalar sc)) l)) vals) ovs).
Proof.
  intros Hnum Hf Hv Hmax Hw Hne Hz. destruct (packed_enc sc l Hw) as (Hpk & Emap). apply goes_record. intros tail.
  assert (Emap' : map SvZ (map (fun v => match v with VS z => z | _ => 0 end) l) = map (view (EScalar sc)) l).
  { rewrite Emap. rewrite <- (map_id (map (view (EScalar sc)) l)) at 2. apply map_ext. now intros []. }
  set (p := flat_map (enc (EScalar sc)) (map (view (EScalar sc)) l)) in *. pose proof (zlen_nonneg p).
  assert (Hl : varint32 (varint (zlen p)) (zlen p)) by (apply varint_varint32; lia).
  unfold delimited. rewrite <- !app_assoc. unfold outcome. destruct (Z.leb_spec (zlen old + zlen l) max).
  - rewrite <- Emap'. eapply rread_field; eauto; [now apply tag_varint32|].
    pose proof (fread_packed false bd max sc old (varint (zlen p)) (zlen p) p (map (fun v => match v with VS z => z | _ => 0 end) l) [] tail) as HH.
    rewrite !app_nil_r in HH. apply HH; auto; [now left|now apply packed_dec_reads|rewrite zlen_map; lia|apply scalar_fails_nil].
  - destruct (packed_split sc sc l (Z.to_nat (max - zlen old)) (kept_same sc) Hw) as (q & zs & c & z & r & Ep & Hq & Hzs & Hc); [unfold zlen in *; lia|]. fold p in Ep. clearbody p.
    subst p. do 2 eexists. eapply rread_field; eauto; [now apply tag_varint32|].
    eapply (fread_packed_full false bd max sc old _ (zlen (q ++ c ++ r)) q zs c z r tail); eauto.
    + now left.
    + unfold zlen in *. lia.
Qed.

Lemma field_merge fs os i ovs num k t oi pres y x vals :
  merge_ok t -> desc_ok t -> 1 <= num < 2 ^ 29 -> nth_error fs i = Some (num, k, t) -> wt_field k (wt t) y -> seen_field k t x ->
  nth_error vals i = Some x ->
  let v := view_field k (view t) oi pres y in
  let w := merge_field k t (merge t) x v in
  zlen (enc_field num k t (enc t) v) < 2 ^ 32 ->
  goes fs os (fits_field k (fits t) w) (SvM vals ovs) (enc_field num k t (enc t) v) (SvM (upd i w vals) ovs).
Proof.
  intros Hm Hd Hnum Hf Hw Hx Hv v w Hz.
  assert (Hblank : enc_field num k t (enc t) v = [] -> goes fs os (fits_field k (fits t) w) (SvM vals ovs) (enc_field num k t (enc t) v) (SvM (upd i w vals) ovs)).
  { intros E. rewrite E. unfold w, v in *. rewrite (field_blank_merge num k t oi pres y x (blank_kept_all t) Hw Hx E). rewrite upd_same by exact Hv.
    replace (fits_field k (fits t) x) with true; [apply goes_nil|]. symmetry. destruct k as [| |max|]; cbn [seen_field fits_field] in *.
    - now apply seen_fits.
    - destruct Hx as [->|(z & -> & Hz')]; [reflexivity|now apply seen_fits].
    - destruct Hx as (l & -> & Hl & Hl'). apply andb_true_iff. split; [lia|]. apply forallb_forall. intros z Hz'. apply seen_fits. exact (proj1 (Forall_forall _ _) Hl z Hz').
    - now subst. }
  assert (Hone : forall x0, wt t y -> seen t x0 -> zlen (enc_elem num t (enc t (view t y))) < 2 ^ 32 -> forall tail,
            outcome (fits t (merge t x0 (view t y))) (eread t x0 (enc_rec t (enc t (view t y)) ++ tail)) (merge t x0 (view t y)) tail).
  { intros x0 Hwy Hx0 Hzz tail. apply elem_merge; auto. pose proof (zlen_enc_elem num t (enc t (view t y))). lia. }
  assert (Hplain : forall x', wt t y -> seen t x -> k = KPlain -> w = merge t x (view t y) -> x' = w -> zlen (enc_elem num t (enc t (view t y))) < 2 ^ 32 ->
            goes fs os (fits t w) (SvM vals ovs) (enc_elem num t (enc t (view t y))) (SvM (upd i w vals) ovs)).
  { intros _ Hwy Hxx -> Ew _ Hzz. rewrite Ew. specialize (Hone x Hwy Hxx Hzz). apply goes_record. intros tail. specialize (Hone tail).
    rewrite enc_elem_rec, <- app_assoc. unfold outcome in *. destruct (fits t _).
    - eapply rread_field; eauto; [now apply tag_varint32|]. apply fread_plain. exact Hone.
    - destruct Hone as (n & r & H). do 2 eexists. eapply rread_field; eauto; [now apply tag_varint32|]. apply fread_plain. exact H. }
  destruct k as [| |max|]; cbn [wt_field] in Hw; cbn [seen_field] in Hx.
  - (* plain *)
    subst v. cbn [view_field fits_field] in *. destruct t as [sc|st max|ifs ios].
    + destruct y as [z| | | |]; try contradiction. cbn [view enc_field] in *. destruct (is_zero sc z) eqn:Ez; [apply Hblank; reflexivity|].
      apply (Hplain w); auto. subst w. cbn [merge_field]. now rewrite Ez.
    + destruct (bytes_view _ _ _ Hw) as (b & Eb & _). destruct b as [|c b].
      * apply Hblank. rewrite Eb. reflexivity.
      * assert (Ee : enc_field num KPlain (EBytes st max) (enc (EBytes st max)) (view (EBytes st max) y) = enc_elem num (EBytes st max) (enc (EBytes st max) (view (EBytes st max) y)))
          by (rewrite Eb; reflexivity).
        rewrite Ee in *. apply (Hplain w); auto. subst w. rewrite Eb. reflexivity.
    + destruct (list_eq_dec Z.eq_dec (enc_field num KPlain (EMsg ifs ios) (enc (EMsg ifs ios)) (view (EMsg ifs ios) y)) []) as [E|E]; [now apply Hblank|].
      rewrite (enc_field_view_msg _ _ _ _ Hw E) in *. apply (Hplain w); auto. subst w. destruct y; try contradiction. reflexivity.
  - (* optional *)
    subst v w. cbn [view_field] in *. destruct (present pres oi); [|apply Hblank; reflexivity]. cbn [enc_field merge_field fits_field] in *.
    set (x0 := match x with SvSome x' => x' | _ => sdefault t end).
    assert (Hx0 : seen t x0) by (destruct Hx as [->|(z & -> & Hz')]; [now apply seen_default|exact Hz']).
    assert (Es : opt_start t x = x0) by (subst x0; destruct Hx as [->|(z & -> & _)]; reflexivity).
    specialize (Hone x0 Hw Hx0 Hz). apply goes_record. intros tail. specialize (Hone tail). rewrite enc_elem_rec, <- app_assoc. unfold outcome in *.
    destruct (fits t _).
    + eapply rread_field; eauto; [now apply tag_varint32|]. apply fread_opt. rewrite Es. exact Hone.
    + destruct Hone as (n & r & H). do 2 eexists. eapply rread_field; eauto; [now apply tag_varint32|]. apply fread_opt. rewrite Es. exact H.
  - (* repeated *)
    destruct y as [| | |len data|]; try contradiction. destruct Hw as (Hl & Hzd & Hwd). apply all_Forall in Hwd. destruct Hx as (old & -> & Hold & Hmax).
    assert (Hwl : Forall (wt t) (firstn (Z.to_nat len) data)) by now apply Forall_firstn. subst v w. cbn [view_field merge_field fits_field] in *.
    remember (firstn (Z.to_nat len) data) as l eqn:El. clear El Hwd Hzd Hl Hone Hplain data. rewrite forallb_app, zlen_app, !zlen_map.
    replace (forallb (fits t) old) with true by (symmetry; apply forallb_forall; intros z Hz'; apply seen_fits; exact (proj1 (Forall_forall _ _) Hold z Hz')). cbn [andb].
    destruct (is_packed t) eqn:Ep.
    + destruct t as [sc| |]; try discriminate. cbn [enc_field] in *.
      assert (Em : map (merge (EScalar sc) (sdefault (EScalar sc))) (map (view (EScalar sc)) l) = map (view (EScalar sc)) l)
        by (rewrite <- (map_id (map (view (EScalar sc)) l)) at 2; now apply map_ext).
      destruct l as [|x l]; [cbn [map flat_map forallb]; rewrite app_nil_r, upd_same by exact Hv; replace (zlen old + zlen (@nil value) <=? max) with true by (rewrite zlen_nil; lia); apply goes_nil|].
      rewrite fits_scalars', andb_true_r. rewrite Em. remember (x :: l) as l' eqn:El'. assert (Hne : l' <> []) by (subst; discriminate).
      replace (match map (view (EScalar sc)) l' with [] => [] | _ :: _ => tag num LENDEL ++ delimited (flat_map (enc (EScalar sc)) (map (view (EScalar sc)) l')) end)
        with (tag num LENDEL ++ delimited (flat_map (enc (EScalar sc)) (map (view (EScalar sc)) l'))) in * by (subst l'; reflexivity).
      apply packed_merge; auto. rewrite zlen_app in Hz. pose proof (zlen_nonneg (tag num LENDEL)).
      pose proof (zlen_delimited (flat_map (enc (EScalar sc)) (map (view (EScalar sc)) l'))). lia.
    + assert (E : forall e : sval -> list Z, enc_field num (KRep max) t e (SvR (map (view t) l)) = flat_map (fun x => enc_elem num t (e x)) (map (view t) l))
        by (intros; destruct t; [discriminate|reflexivity|reflexivity]).
      rewrite E in *. apply unpacked_merge; auto.
  - (* dropped *)
    apply Hblank. reflexivity.
Qed.

Lemma fields_merge os ovs pres : forall fs2 fs1 d1 oi xs ys,
  desc_ok (EMsg (fs1 ++ fs2) os) -> Forall (fun f : fdesc => merge_ok (snd f)) fs2 -> length d1 = length fs1 ->
  all2 (fun '(_, k, t) => wt_field k (wt t)) fs2 ys -> all2 (fun '(_, k, t) => seen_field k t) fs2 xs ->
  zlen (enc_fields (etab fs2) (view_fields (vtab fs2) oi pres ys)) < 2 ^ 32 ->
  let ws := merge_fields (mtab fs2) xs (view_fields (vtab fs2) oi pres ys) in
  goes (fs1 ++ fs2) os (fits_fields (ftab fs2) ws) (SvM (d1 ++ xs) ovs) (enc_fields (etab fs2) (view_fields (vtab fs2) oi pres ys)) (SvM (d1 ++ ws) ovs).
Proof.
  induction fs2 as [|[[num k] t] fs2 IH]; intros fs1 d1 oi xs ys Hd He Hl Hw Hx Hz ws; destruct ys as [|y ys], xs as [|x xs]; cbn [all2] in Hw, Hx; try contradiction.
  - apply goes_nil.
  - destruct Hw as [Hwy Hw], Hx as [Hxx Hx]. inversion He as [|? ? Het He2]; subst. cbn [snd] in Het.
    assert (Hf : nth_error (fs1 ++ (num, k, t) :: fs2) (length d1) = Some (num, k, t)) by (rewrite Hl; apply nth_error_mid).
    destruct (desc_field _ _ _ _ _ _ Hd Hf) as (Hdt & Hnum & Hcap). subst ws.
    cbn [vtab etab mtab ftab map view_fields enc_fields merge_fields fits_fields] in *. rewrite zlen_app in Hz.
    match type of Hz with zlen ?a + zlen ?b < _ => pose proof (zlen_nonneg a); pose proof (zlen_nonneg b) end.
    set (w := merge_field k t (merge t) x (view_field k (view t) oi pres y)).
    apply goes_app with (v2 := SvM (d1 ++ w :: xs) ovs).
    + rewrite <- (upd_mid d1 x w xs). apply field_merge; auto; [apply nth_error_mid|lia].
    + intros _. replace (fs1 ++ (num, k, t) :: fs2) with ((fs1 ++ [(num, k, t)]) ++ fs2) by (rewrite <- app_assoc; reflexivity).
      match goal with |- VersionProofs.goes _ _ _ _ (SvM (d1 ++ ?a :: ?b) _) _ (SvM (d1 ++ _ :: ?c) _) =>
        replace (d1 ++ a :: b) with ((d1 ++ [a]) ++ b) by (rewrite <- app_assoc; reflexivity);
        replace (d1 ++ a :: c) with ((d1 ++ [a]) ++ c) by (rewrite <- app_assoc; reflexivity) end.
      apply IH; auto.
      * rewrite <- app_assoc. exact Hd.
      * rewrite !app_length. cbn. lia.
      * unfold etab, vtab. lia.
Qed.

Lemma oneofs_merge fs vs : forall os2 os1 d1 oxs ovs,
  desc_ok (EMsg fs (os1 ++ os2)) -> Forall (Forall (fun m : Z * ety => merge_ok (snd m))) os2 -> length d1 = length os1 ->
  all2 (fun ms => wt_oneof (map (fun '(num, t) => (num, wt t)) ms)) os2 ovs -> all2 seen_oneof os2 oxs ->
  zlen (enc_oneofs (eotab os2) (view_oneofs (votab os2) ovs)) < 2 ^ 32 ->
  let ws := merge_oneofs (motab os2) oxs (view_oneofs (votab os2) ovs) in
  goes fs (os1 ++ os2) (fits_oneofs (fotab os2) ws) (SvM vs (d1 ++ oxs)) (enc_oneofs (eotab os2) (view_oneofs (votab os2) ovs)) (SvM vs (d1 ++ ws)).
Proof.
  induction os2 as [|ms os2 IH]; intros os1 d1 oxs ovs Hd He Hl Hw Hx Hz ws; destruct ovs as [|o ovs], oxs as [|x oxs]; cbn [all2] in Hw, Hx; try contradiction.
  - apply goes_nil.
  - destruct Hw as [Hwo Hw], Hx as [Hxo Hx]. inversion He as [|? ? Het He2]; subst. subst ws.
    assert (Hf : nth_error (os1 ++ ms :: os2) (length d1) = Some ms) by (rewrite Hl; apply nth_error_mid).
    cbn [votab eotab motab fotab map view_oneofs enc_oneofs merge_oneofs fits_oneofs] in *. rewrite zlen_app in Hz.
    match type of Hz with zlen ?a + zlen ?b < _ => pose proof (zlen_nonneg a); pose proof (zlen_nonneg b) end.
    set (w := merge_oneof (map (fun '(num, t) => (num, (t, merge t))) ms) x (view_oneof (map (fun '(num, t) => (num, view t)) ms) o)).
    apply goes_app with (v2 := SvM vs (d1 ++ w :: oxs)).
    + assert (Hz1 : zlen (enc_oneof (map (fun '(num, t) => (num, (t, enc t))) ms) (view_oneof (map (fun '(num, t) => (num, view t)) ms) o)) < 2 ^ 32) by lia.
      assert (Hfx : fits_oneof (map (fun '(num, t) => (num, fits t)) ms) x = true).
      { unfold fits_oneof. destruct Hxo as [->|(num & t & y & El & -> & Hy)]; cbn [fst snd]; rewrite (lookup_map fits).
        - destruct (lookup ms 0); reflexivity.
        - rewrite El. now apply seen_fits. }
      unfold wt_oneof in Hwo. subst w. unfold view_oneof, enc_oneof, merge_oneof in *. rewrite (lookup_map wt) in Hwo. rewrite (lookup_map view) in Hz1 |- *.
      destruct (lookup ms (fst o)) as [t|] eqn:El; cbn [fst snd] in *.
      * rewrite (lookup_map (fun t => (t, enc t))), El in *. rewrite (lookup_map (fun t => (t, merge t))), El. destruct (desc_member _ _ _ _ _ _ Hd Hf El) as (Hdt & Hnum).
        assert (Hedt : merge_ok t) by (apply lookup_In in El; exact (proj1 (Forall_forall _ _) Het _ El)).
        pose proof (zlen_enc_elem (fst o) t (enc t (view t (snd o)))).
        set (x0 := if fst x =? fst o then match snd x with SvSome x' => x' | _ => sdefault t end else sdefault t).
        assert (Hx0 : seen t x0 /\ member_start (fst o) t x = x0).
        { subst x0. unfold member_start. rewrite (Z.eqb_sym (fst o)). destruct Hxo as [->|(num & t' & y & El' & -> & Hy)]; cbn [fst snd].
          - split; [|destruct (0 =? fst o); reflexivity]. destruct (0 =? fst o); now apply seen_default.
          - destruct (Z.eqb_spec num (fst o)) as [->|]; [|split; [now apply seen_default|reflexivity]]. rewrite El in El'. injection El' as <-. split; [exact Hy|reflexivity]. }
        destruct Hx0 as [Hx0 Es]. pose proof (elem_merge t (snd o) x0 Hedt Hwo Hx0 Hdt ltac:(lia)) as Hone.
        apply goes_record. intros tail. specialize (Hone tail). rewrite enc_elem_rec, <- app_assoc. unfold fits_oneof. cbn [fst snd]. rewrite (lookup_map fits), El.
        unfold outcome in *. destruct (fits t _).
        -- rewrite <- (upd_mid d1 x (fst o, SvSome (merge t x0 (view t (snd o))))). eapply (rread_oneof false bd fs _ vs _ (length d1) ms (fst o) t x _ _ NoErrors); eauto; [apply nth_error_mid|now apply tag_varint32|].
           rewrite Es. exact Hone.
        -- destruct Hone as (n & r & H'). do 2 eexists. eapply rread_oneof; eauto; [apply nth_error_mid|now apply tag_varint32|]. rewrite Es. exact H'.
      * replace (match lookup (map (fun '(num, t) => (num, (t, enc t))) ms) 0 with Some (_, _) | _ => [] end) with (@nil Z) by (now destruct (lookup (map (fun '(num, t) => (num, (t, enc t))) ms) 0) as [[? ?]|]).
        replace (match lookup (map (fun '(num, t) => (num, (t, merge t))) ms) 0 with Some (_, _) | _ => x end) with x by (now destruct (lookup (map (fun '(num, t) => (num, (t, merge t))) ms) 0) as [[? ?]|]).
        rewrite Hfx. apply goes_nil.
    + intros _. replace (os1 ++ ms :: os2) with ((os1 ++ [ms]) ++ os2) by (rewrite <- app_assoc; reflexivity).
      match goal with |- VersionProofs.goes _ _ _ _ (SvM _ (d1 ++ ?a :: ?b)) _ (SvM _ (d1 ++ _ :: ?c)) =>
        replace (d1 ++ a :: b) with ((d1 ++ [a]) ++ b) by (rewrite <- app_assoc; reflexivity);
        replace (d1 ++ a :: c) with ((d1 ++ [a]) ++ c) by (rewrite <- app_assoc; reflexivity) end.
      apply IH; auto.
      * rewrite <- app_assoc. exact Hd.
      * rewrite !app_length. cbn. lia.
      * unfold eotab, votab. lia.
Qed.

Lemma message_merge fs os v x : let t := EMsg fs os in
  Forall (fun f : fdesc => merge_ok (snd f)) fs -> Forall (Forall (fun m : Z * ety => merge_ok (snd m))) os ->
  wt t v -> seen t x -> desc_ok t -> zlen (enc t (view t v)) < 2 ^ 32 ->
  outcome (fits t (merge t x (view t v))) (mread false bd fs os x (enc t (view t v))) (merge t x (view t v)) [].
Proof.
  intros t Hf Ho Hw Hx Hd Hz. subst t. destruct (seen_msg _ _ _ Hx) as (xs & oxs & -> & X1 & X2). destruct v as [| | | |pres ys oys]; try contradiction.
  rewrite view_tab, enc_tab, merge_tab, fits_tab in *. cbn [wt] in Hw. destruct Hw as (_ & _ & W1 & W2). rewrite zlen_app in Hz.
  match type of Hz with zlen ?a + zlen ?b < _ => pose proof (zlen_nonneg a); pose proof (zlen_nonneg b) end.
  set (ws := merge_fields _ _ _). set (ows := merge_oneofs _ _ _).
  assert (Hg : goes fs os (fits_fields (ftab fs) ws && fits_oneofs (fotab os) ows) (SvM xs oxs)
     (enc_fields (etab fs) (view_fields (vtab fs) 0 pres ys) ++ enc_oneofs (eotab os) (view_oneofs (votab os) oys)) (SvM ws ows)).
  { apply goes_app with (v2 := SvM ws oxs).
    - apply (fields_merge os oxs pres fs [] [] 0 xs ys); auto. lia.
    - intros _. apply (oneofs_merge fs ws os [] [] oxs oys); auto. lia. }
  specialize (Hg []). rewrite app_nil_r in Hg. unfold outcome. destruct (fits_fields (ftab fs) ws && fits_oneofs (fotab os) ows); [|exact Hg].
  apply Hg. apply mread_end. apply varint_cut; [cbn; lia|constructor].
Qed.
End Receiver.

Theorem merge_all t : merge_ok t.
Proof.
  induction t as [sc|st max|fs os Hf Ho] using ety_ind'; intros v x Hw Hx Hd Hz fs' os' E; try discriminate. injection E as <- <-.
  apply message_merge; auto.
Qed.

(** ** An update is sent *)
Theorem update fs os v v0 : let t := EMsg fs os in
  desc_ok t -> wt t v -> zlen (enc t (view t v)) < 2 ^ 32 -> wt t v0 -> clean t v0 ->
  let w := merge t (view t v0) (view t v) in
  forall cap b c n b', wfix_rel cap b c (Some n) -> serialize t v _ (wfix_ops cap) b = Done (NoErrors, b') ->
  exists bytes, wfix_content b' = wfix_content b ++ bytes /\
  forall S (R : rops S) rel, reader_ok R rel -> forall s, rel s bytes -> forall fuel, (length bytes < fuel)%nat ->
  (fits t w = true -> exists v' s', deserialize fuel t S R v0 s = Done (NoErrors, v', s') /\ view t v' = w)
  /\ (fits t w = false -> exists v' s', deserialize fuel t S R v0 s = Done (ArrayFull, v', s') /\ wt t v').
Proof.
  intros t Hd Hw Hz Hw0 Hc0 w cap b c n b' Hr E. exists (enc t (view t v)). split; [eapply serialize_is_enc; eauto|].
  intros S R rel ok s Hs fuel Hfu.
  pose proof (message_merge false fs os v (view t v0) ltac:(apply Forall_forall; intros; apply merge_all)
    ltac:(apply Forall_forall; intros; apply Forall_forall; intros; apply merge_all) Hw (ex_intro _ v0 (conj Hw0 eq_refl)) Hd Hz) as H. fold t w in H. unfold outcome in H.
  split; intros Ef; rewrite Ef in H.
  - destruct (decode_reads fs os v0 false false _ _ _ _ Hd Hw0 Hc0 H S R rel ok ltac:(discriminate) s Hs fuel Hfu) as (v' & s' & E' & _ & _ & _ & _ & Hv).
    exists v', s'. split; [exact E'|]. exact (Hv (or_intror eq_refl)).
  - destruct H as (n0 & r & H). destruct (decode_reads fs os v0 false false _ _ _ _ Hd Hw0 Hc0 H S R rel ok ltac:(discriminate) s Hs fuel Hfu) as (v' & s' & E' & _ & Hw' & _).
    exists v', s'. auto.
Qed.
