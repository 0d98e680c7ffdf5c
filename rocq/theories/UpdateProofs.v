(** An object that is updated by a program with another version of the message type (C89). *)
From Verif Require Import Base Buffers Wire Schema Fields Message Spec Contracts BitLemmas
  ReadProofs ScalarProofs BufferProofs Struct SerProofs Tables DecodeProofs RoundTrip DecodeProps SerProps SpecRead ReadAny ReadTotal MalformedProps
  SpecRetype RetypeProofs SpecVersions VersionProofs SpecMerge MergeProofs SpecUpdate.
From Coq Require Import ZifyBool ZifyNat ZifyN.
Ltac Zify.zify_post_hook ::= Z.div_mod_to_equations.

Definition okb {A} (o : option A) : bool := match o with Some _ => true | None => false end.
Definition val (o : option sval) : sval := match o with Some x => x | None => SvNone end.

Definition utab (fs' : list fdesc) := map (fun '(n, k', u') => (n, (k', sdefault u', fun u => updated u u'))) fs'.
Definition uotab (os' : list odesc) := map (map (fun '(n, u') => (n, (KOpt, sdefault u', fun u => updated u u')))) os'.
Lemma updated_tab fs os fs' os' xs oxs vs ovs : updated (EMsg fs os) (EMsg fs' os') (SvM xs oxs) (SvM vs ovs)
  = all_arrive (utab fs') (uotab os') (field_rows fs vs ++ oneof_rows os ovs) xs oxs.
Proof. reflexivity. Qed.

Lemma compatible_wiretype t t' : compatible t t' -> elem_wiretype t = elem_wiretype t'.
Proof. destruct 1 as [sc sc' H| |]; [destruct sc, sc'; try discriminate; reflexivity|reflexivity..]. Qed.

Section Receiver.
Variable bd : bool.
Local Notation eread := (eread false bd).
Local Notation rread := (rread false bd).
Local Notation fread := (fread false bd).
Local Notation goes := (goes bd).

Lemma goes_none fs os old bs m m' : goes fs os false old bs m -> goes fs os false old bs m'.
Proof. intros H. exact H. Qed.

Definition upd_ok (t : ety) : Prop := forall v t' x, compatible t t' -> wt t v -> seen t' x -> desc_ok t -> desc_ok t' -> zlen (enc t (view t v)) < 2 ^ 32 ->
  forall fs' os', t' = EMsg fs' os' ->
  let w := updated t t' x (norm t (view t v)) in
  outcome (okb w) (mread false true fs' os' x (enc t (view t v))) (val w) [].

Lemma elem_upd t v t' x : upd_ok t -> compatible t t' -> wt t v -> seen t' x -> desc_ok t -> desc_ok t' -> zlen (enc t (view t v)) < 2 ^ 32 ->
  let w := updated t t' x (norm t (view t v)) in
  forall tail, outcome (okb w) (eread t' x (enc_rec t (enc t (view t v)) ++ tail)) (val w) tail.
Proof.
  intros Hm Hver Hw Hx Hd Hd' Hz w tail. subst w. pose proof (zlen_nonneg (enc t (view t v))).
  destruct Hver as [sc sc' Hkept|st max st' max'|fs os fs' os' V1].
  - destruct v as [z| | | |]; try contradiction. cbn. constructor. constructor. now apply always_kept_ok.
  - destruct (bytes_view _ _ _ Hw) as (b & E & Hb & Hlen). rewrite E in *. cbn [updated enc enc_rec norm] in *. unfold delimited. rewrite <- app_assoc.
    unfold outcome. destruct (Z.leb_spec (zlen b) max'); cbn [okb val].
    + apply eread_bytes; [apply varint_varint32; lia|assumption].
    + do 2 eexists. eapply eread_too_long; [apply varint_varint32; lia|assumption].
  - assert (Hver : compatible (EMsg fs os) (EMsg fs' os')) by (constructor; auto).
    specialize (Hm v _ x Hver Hw Hx Hd Hd' Hz fs' os' eq_refl). cbv zeta in Hm. remember (enc (EMsg fs os) (view (EMsg fs os) v)) as p eqn:Ep.
    cbn [enc_rec]. unfold delimited. rewrite <- app_assoc. assert (Hl : varint32 (varint (zlen p)) (zlen p)) by (apply varint_varint32; lia).
    assert (Hb : bd || (zlen p =? zlen p) = true) by (rewrite Z.eqb_refl; now destruct bd).
    remember (updated _ _ _ _) as w eqn:Ew. unfold outcome in *. destruct (okb w).
    + eapply (eread_msg false bd fs' os' _ _ (zlen p) p NoErrors _ [] tail); eauto; [now left|]. rewrite Hb. exact Hm.
    + destruct Hm as (n & r & Hm). exists n, (r ++ tail). eapply (eread_msg false bd fs' os' _ _ (zlen p) p ArrayFull n r tail); eauto; [now left|].
      rewrite Hb. exact Hm.
Qed.

Lemma elem_fupd t v t' max old : is_packed t = false -> upd_ok t -> compatible t t' -> wt t v -> desc_ok t -> desc_ok t' -> zlen (enc t (view t v)) < 2 ^ 32 ->
  zlen old < max ->
  let w := updated t t' (sdefault t') (norm t (view t v)) in
  forall tail, outcome (okb w) (fread (KRep max) t' LENDEL (SvR old) (enc_rec t (enc t (view t v)) ++ tail)) (SvR (old ++ [val w])) tail.
Proof.
  intros Hpk Hm Hver Hw Hd Hd' Hz Hmax w tail. subst w. pose proof (zlen_nonneg (enc t (view t v))).
  destruct Hver as [sc sc' Hkept|st cap st' cap'|fs os fs' os' V1].
  - discriminate.
  - destruct (bytes_view _ _ _ Hw) as (b & E & Hb & Hlen). rewrite E in *. cbn [updated enc enc_rec norm] in *. unfold delimited. rewrite <- app_assoc.
    unfold outcome. destruct (Z.leb_spec (zlen b) cap'); cbn [okb val].
    + apply fread_rep_bytes; [assumption|apply varint_varint32; lia|assumption].
    + do 2 eexists. eapply (fread_rep_bytes_too_long false bd max st' cap' old []); [reflexivity|assumption|apply varint_varint32; lia|assumption].
  - assert (Hver : compatible (EMsg fs os) (EMsg fs' os')) by (constructor; auto).
    specialize (Hm v _ _ Hver Hw (seen_default _ Hd') Hd Hd' Hz fs' os' eq_refl). cbv zeta in Hm. remember (enc (EMsg fs os) (view (EMsg fs os) v)) as p eqn:Ep.
    cbn [enc_rec]. unfold delimited. rewrite <- app_assoc. assert (Hl : varint32 (varint (zlen p)) (zlen p)) by (apply varint_varint32; lia).
    assert (Hb : bd || (zlen p =? zlen p) = true) by (rewrite Z.eqb_refl; now destruct bd).
    remember (updated _ _ _ _) as w eqn:Ew. unfold outcome in *. destruct (okb w).
    + eapply (fread_rep_msg false bd max fs' os' old _ (zlen p) p NoErrors _ [] tail); eauto; [now left|]. rewrite Hb. exact Hm.
    + destruct Hm as (n & r & Hm). exists (SvR (old ++ [n])), (r ++ tail).
      eapply (fread_rep_msg false bd max fs' os' old _ (zlen p) p ArrayFull n r tail); eauto; [now left|]. rewrite Hb. exact Hm.
Qed.

(** The elements [l], which arrive one after the other. *)
Definition grown (f : sval -> option sval) (max : Z) (old l : list sval) : option sval :=
  if zlen old + zlen l <=? max then option_map (fun l' => SvR (old ++ l')) (all_some (map f l)) else None.
Lemma grown_cons f max old x l : grown f max old (x :: l) = match f x with Some y => grown f max (old ++ [y]) l | None => None end.
Proof.
  unfold grown. rewrite zlen_cons. cbn [map all_some]. destruct (f x) as [y|]; [|destruct (_ <=? _); reflexivity].
  rewrite zlen_app, zlen_cons, zlen_nil. replace (zlen old + (1 + 0) + zlen l) with (zlen old + (1 + zlen l)) by lia.
  destruct (_ <=? _); [|reflexivity]. destruct (all_some (map f l)); cbn [option_map]; [now rewrite <- app_assoc|reflexivity].
Qed.

Lemma unpacked_upd t t' num max fs' os' i ovs : is_packed t = false -> upd_ok t -> compatible t t' -> desc_ok t -> desc_ok t' -> 1 <= num < 2 ^ 29 ->
  nth_error fs' i = Some (num, KRep max, t') ->
  forall l old vals, Forall (wt t) l -> nth_error vals i = Some (SvR old) -> zlen old <= max ->
  zlen (flat_map (fun x => enc_elem num t (enc t x)) (map (view t) l)) < 2 ^ 32 ->
  let w := grown (updated t t' (sdefault t')) max old (map (norm t) (map (view t) l)) in
  goes fs' os' (okb w) (SvM vals ovs) (flat_map (fun x => enc_elem num t (enc t x)) (map (view t) l)) (SvM (upd i (val w) vals) ovs).
Proof.
  intros Hpk Hm Hver Hd Hd' Hnum Hf. induction l as [|x l IH]; intros old vals Hw Ho Hmax Hz w; subst w; cbn [map flat_map].
  - unfold grown. rewrite zlen_nil. replace (zlen old + 0 <=? max) with true by lia. cbn [map all_some option_map okb val].
    rewrite app_nil_r, upd_same by exact Ho. apply goes_nil.
  - inversion Hw as [|? ? Hx Hl]; subst. cbn [map flat_map] in Hz. rewrite zlen_app in Hz.
    pose proof (zlen_enc_elem num t (enc t (view t x))). pose proof (zlen_nonneg (enc_elem num t (enc t (view t x)))). pose proof (zlen_nonneg l).
    pose proof (zlen_nonneg (flat_map (fun x => enc_elem num t (enc t x)) (map (view t) l))). pose proof (zlen_nonneg (enc t (view t x))).
    assert (Hwl : elem_wiretype t = LENDEL) by (destruct t; [discriminate|reflexivity..]).
    assert (Hlt : (i < length vals)%nat) by (eapply nth_error_lt; eauto).
    destruct (Z.eq_dec (zlen old) max) as [Hfull|Hroom].
    + assert (Ew : grown (updated t t' (sdefault t')) max old (norm t (view t x) :: map (norm t) (map (view t) l)) = None).
      { unfold grown. rewrite zlen_cons, !zlen_map. replace (zlen old + (1 + zlen l) <=? max) with false by lia. reflexivity. }
      rewrite Ew. cbn [okb]. intros tail. do 2 eexists. apply mread_stop; [|discriminate].
      rewrite enc_elem_rec, Hwl, <- !app_assoc. eapply rread_field; eauto; [now apply tag_varint32|]. apply fread_rep_full; [|exact Hfull].
      destruct Hver; [discriminate|reflexivity..].
    + rewrite grown_cons.
      assert (Hg : goes fs' os' (okb (updated t t' (sdefault t') (norm t (view t x)))) (SvM vals ovs) (enc_elem num t (enc t (view t x)))
                     (SvM (upd i (SvR (old ++ [val (updated t t' (sdefault t') (norm t (view t x)))])) vals) ovs)).
      { apply goes_record. intros tail. rewrite enc_elem_rec, Hwl, <- app_assoc.
        pose proof (elem_fupd t x t' max old Hpk Hm Hver Hx Hd Hd' ltac:(lia) ltac:(lia) tail) as H4.
        unfold outcome in *. destruct (okb _).
        - eapply rread_field; eauto. now apply tag_varint32.
        - destruct H4 as (n & r & H4). do 2 eexists. eapply rread_field; eauto. now apply tag_varint32. }
      destruct (updated t t' (sdefault t') (norm t (view t x))) as [y|]; cbn [okb val] in *.
      * match goal with |- VersionProofs.goes _ _ _ (okb ?w) _ _ _ => change (okb w) with (true && okb w) end.
        eapply goes_app; [exact Hg|]. intros _. 
        match goal with |- VersionProofs.goes _ _ _ (okb ?w) _ _ _ => rewrite <- (upd_upd i (SvR (old ++ [y])) (val w) vals) end.
        apply IH; auto; [now apply nth_error_upd_same| |lia]. rewrite zlen_app, zlen_cons, zlen_nil. lia.
      * change false with (false && true). eapply goes_app; [exact Hg|discriminate].
Qed.

Lemma all_some_scalars sc sc' x l : Forall (wt (EScalar sc)) l ->
  all_some (map (updated (EScalar sc) (EScalar sc') x) (map (norm (EScalar sc)) (map (view (EScalar sc)) l)))
  = Some (map SvZ (map (fun v => match v with VS z => cast sc' z | _ => 0 end) l)).
Proof.
  induction 1 as [|v l Hv Hl IH]; [reflexivity|]. cbn [map all_some]. rewrite IH. destruct v; try contradiction. reflexivity.
Qed.

Lemma packed_upd sc sc' num max fs' os' i ovs l old vals : always_kept sc sc' = true -> 1 <= num < 2 ^ 29 ->
  nth_error fs' i = Some (num, KRep max, EScalar sc') -> nth_error vals i = Some (SvR old) -> zlen old <= max -> Forall (wt (EScalar sc)) l -> l <> [] ->
  zlen (flat_map (enc (EScalar sc)) (map (view (EScalar sc)) l)) < 2 ^ 32 ->
  let w := grown (updated (EScalar sc) (EScalar sc') (sdefault (EScalar sc'))) max old (map (norm (EScalar sc)) (map (view (EScalar sc)) l)) in
  goes fs' os' (okb w) (SvM vals ovs) (tag num LENDEL ++ delimited (flat_map (enc (EScalar sc)) (map (view (EScalar sc)) l))) (SvM (upd i (val w) vals) ovs).
Proof.
  intros Hk Hnum Hf Hv Hmax Hw Hne Hz w. destruct (packed_cast sc sc' l Hk Hw) as (Hpk & _). apply goes_record. intros tail.
  assert (Ew : w = if zlen old + zlen l <=? max then Some (SvR (old ++ map SvZ (map (fun v => match v with VS z => cast sc' z | _ => 0 end) l))) else None).
  { subst w. unfold grown. rewrite all_some_scalars by exact Hw. rewrite !zlen_map. reflexivity. }
  clearbody w. subst w.
  set (p := flat_map (enc (EScalar sc)) (map (view (EScalar sc)) l)) in *. pose proof (zlen_nonneg p).
  assert (Hl : varint32 (varint (zlen p)) (zlen p)) by (apply varint_varint32; lia).
  unfold delimited. rewrite <- !app_assoc. destruct (Z.leb_spec (zlen old + zlen l) max); cbn [okb val outcome].
  - eapply rread_field; eauto; [now apply tag_varint32|].
    pose proof (fread_packed false bd max sc' old (varint (zlen p)) (zlen p) p (map (fun v => match v with VS z => cast sc' z | _ => 0 end) l) [] tail) as HH.
    rewrite !app_nil_r in HH. apply HH; auto; [now left|now apply packed_dec_reads|rewrite zlen_map; lia|apply scalar_fails_nil].
  - destruct (packed_split sc sc' l (Z.to_nat (max - zlen old)) Hk Hw) as (q & zs & c & z & r & Ep & Hq & Hzs & Hc); [unfold zlen in *; lia|]. fold p in Ep. clearbody p.
    subst p. do 2 eexists. eapply rread_field; eauto; [now apply tag_varint32|].
    eapply (fread_packed_full false bd max sc' old _ (zlen (q ++ c ++ r)) q zs c z r tail); eauto.
    + now left.
    + unfold zlen in *. lia.
Qed.

Lemma field_upd fs' os' i ovs num k t k' t' oi pres y x vals :
  upd_ok t -> compatible t t' -> same_kind k k' -> desc_ok t -> desc_ok t' -> 1 <= num < 2 ^ 29 -> nth_error fs' i = Some (num, k', t') ->
  wt_field k (wt t) y -> seen_field k' t' x -> nth_error vals i = Some x ->
  let v := view_field k (view t) oi pres y in
  let w := arrives k k' (updated t t') (sdefault t') (norm_field k t (norm t) v) x in
  zlen (enc_field num k t (enc t) v) < 2 ^ 32 ->
  goes fs' os' (okb w) (SvM vals ovs) (enc_field num k t (enc t) v) (SvM (upd i (val w) vals) ovs).
Proof.
  intros Hm Hver Hk Hd Hd' Hnum Hf Hw Hx Hv v w Hz.
  assert (Hsame : w = Some x -> enc_field num k t (enc t) v = [] -> goes fs' os' (okb w) (SvM vals ovs) (enc_field num k t (enc t) v) (SvM (upd i (val w) vals) ovs)).
  { intros -> ->. cbn [okb val]. rewrite upd_same by exact Hv. apply goes_nil. }
  destruct k as [| |max|].
  1,2: assert (Hk' : k' = KPlain \/ k' = KOpt) by (destruct k'; try contradiction; auto);
    match type of Hw with wt_field ?k _ _ => assert (Hk2 : k = KPlain \/ k = KOpt) by auto;
      pose proof (given_row num k t oi pres y Hk2 Hw) as HG end; cbv zeta in HG; fold v in HG; cbn [wt_field] in Hw;
    destruct HG as [(E1 & E2)|(E1 & E2)];
    [apply Hsame; [|exact E1]; subst w; unfold arrives; rewrite E2; destruct Hk' as [-> | ->]; reflexivity|];
    rewrite E1 in *; subst w; unfold arrives; rewrite E2; pose proof (zlen_enc_elem num t (enc t (view t y)));
    apply goes_record; intros tail; rewrite enc_elem_rec, (compatible_wiretype _ _ Hver), <- app_assoc;
    destruct Hk' as [-> | ->]; cbn [seen_field] in Hx.
  1,3: pose proof (elem_upd t y t' x Hm Hver Hw Hx Hd Hd' ltac:(lia) tail) as He; cbv zeta in He; unfold outcome in *;
    destruct (updated t t' x _); cbn [okb val] in *;
    [eapply rread_field; eauto; [now apply tag_varint32|]; now apply fread_plain
    |destruct He as (n & r & He); do 2 eexists; eapply rread_field; eauto; [now apply tag_varint32|]; apply fread_plain; exact He].
  1,2: assert (Hx0 : seen t' (opt_start t' x)) by (destruct Hx as [->|(z & -> & Hz')]; [now apply seen_default|exact Hz']);
    pose proof (elem_upd t y t' _ Hm Hver Hw Hx0 Hd Hd' ltac:(lia) tail) as He; cbv zeta in He; unfold outcome in *;
    change (match x with SvSome x' => x' | _ => sdefault t' end) with (opt_start t' x);
    destruct (updated t t' (opt_start t' x) _); cbn [okb val option_map] in *;
    [eapply rread_field; eauto; [now apply tag_varint32|]; now apply fread_opt
    |destruct He as (n & r & He); do 2 eexists; eapply rread_field; eauto; [now apply tag_varint32|]; apply fread_opt; exact He].
  - (* repeated *)
    destruct k' as [| |max'|]; try contradiction. cbn [seen_field] in Hx. destruct Hx as (old & -> & _ & Hmax). subst v w.
    destruct y as [| | |len data|]; try contradiction. destruct Hw as (Hl & Hzd & Hwd). apply all_Forall in Hwd.
    assert (Hwl : Forall (wt t) (firstn (Z.to_nat len) data)) by now apply Forall_firstn. cbn [view_field norm_field] in *.
    remember (firstn (Z.to_nat len) data) as l eqn:El. clear El Hwd Hzd Hl data Hsame. cbn [arrives].
    match goal with |- VersionProofs.goes _ _ _ (okb ?w) _ _ _ => change w with (grown (updated t t' (sdefault t')) max' old (map (norm t) (map (view t) l))) end.
    destruct (is_packed t) eqn:Ep.
    + destruct t as [sc| |]; try discriminate. inversion Hver as [? sc' Hkept| |]; subst. cbn [enc_field] in *.
      destruct l as [|x l].
      * unfold grown. cbn [map all_some]. rewrite zlen_nil. replace (zlen old + 0 <=? max') with true by lia. cbn [option_map okb val].
        rewrite app_nil_r, upd_same by exact Hv. apply goes_nil.
      * remember (x :: l) as l' eqn:El'. assert (Hne : l' <> []) by (subst; discriminate).
        replace (match map (view (EScalar sc)) l' with [] => [] | _ :: _ => tag num LENDEL ++ delimited (flat_map (enc (EScalar sc)) (map (view (EScalar sc)) l')) end)
          with (tag num LENDEL ++ delimited (flat_map (enc (EScalar sc)) (map (view (EScalar sc)) l'))) in * by (subst l'; reflexivity).
        apply packed_upd; auto. rewrite zlen_app in Hz. pose proof (zlen_nonneg (tag num LENDEL)).
        pose proof (zlen_delimited (flat_map (enc (EScalar sc)) (map (view (EScalar sc)) l'))). lia.
    + assert (E : forall e : sval -> list Z, enc_field num (KRep max) t e (SvR (map (view t) l)) = flat_map (fun x => enc_elem num t (e x)) (map (view t) l))
        by (intros; destruct t; [discriminate|reflexivity|reflexivity]).
      rewrite E in *. apply (unpacked_upd t t' num max' fs' os' i ovs Ep Hm Hver Hd Hd' Hnum Hf l old vals); auto.
  - (* dropped *)
    destruct k'; try contradiction. apply Hsame; reflexivity.
Qed.

(** ** One field of the sender *)
Lemma to_field_known fs' num k t v : NoDup (map (fun '(m, _, _) => m) fs') -> forall i k' t' xs x, nth_error fs' i = Some (num, k', t') -> nth_error xs i = Some x ->
  to_field (utab fs') (num, k, t, v) xs = option_map (fun y => upd i y xs) (arrives k k' (updated t t') (sdefault t') v x).
Proof.
  induction fs' as [|[[m j] u] fs' IH]; intros Hnd [|i] k' t' [|x0 xs] x Hi Hx; try discriminate; cbn [utab map to_field nth_error] in *.
  - injection Hi as -> -> ->. injection Hx as ->. rewrite Z.eqb_refl. reflexivity.
  - inversion Hnd; subst. destruct (Z.eqb_spec m num) as [->|].
    + exfalso. apply H1. apply in_map_iff. exists (num, k', t'). split; [reflexivity|]. eapply nth_error_In; eauto.
    + unfold utab in IH. rewrite (IH H2 i k' t' xs x Hi Hx). destruct (arrives _ _ _ _ _ _); reflexivity.
Qed.
Lemma to_field_unknown fs' num k t v : ~ In num (map (fun '(m, _, _) => m) fs') -> forall xs, to_field (utab fs') (num, k, t, v) xs = Some xs.
Proof.
  induction fs' as [|[[m j] u] fs' IH]; intros H [|x xs]; try reflexivity. cbn [map In] in H. cbn [utab map to_field].
  destruct (Z.eqb_spec m num); [tauto|]. unfold utab in IH. rewrite IH by tauto. reflexivity.
Qed.
Lemma to_member_known os' num k t v : forall j ms t' oxs o, NoDup (flat_map (map fst) os') -> nth_error os' j = Some ms -> lookup ms num = Some t' -> nth_error oxs j = Some o ->
  to_member (uotab os') (num, k, t, v) oxs = option_map (fun y => upd j y oxs) (arrives_member num k (updated t t') (sdefault t') v o).
Proof.
  induction os' as [|ms0 os' IH]; intros [|j] ms t' [|o0 oxs] o Hnd Hj Hl Ho; try discriminate; cbn [uotab map to_member nth_error] in *.
  - injection Hj as ->. injection Ho as ->. rewrite (lookup_map (fun u' => (KOpt, sdefault u', fun u => updated u u'))), Hl. reflexivity.
  - rewrite (lookup_map (fun u' => (KOpt, sdefault u', fun u => updated u u'))). destruct (lookup ms0 num) as [u|] eqn:E.
    + exfalso. cbn [flat_map] in Hnd. apply (NoDup_app_disjoint _ _ num Hnd); [apply lookup_In in E; apply (in_map fst) in E; exact E|].
      apply in_flat_map. exists ms. split; [eapply nth_error_In; eauto|]. apply lookup_In in Hl. apply (in_map fst) in Hl. exact Hl.
    + cbn [flat_map] in Hnd. unfold uotab in IH. rewrite (IH j ms t' oxs o) by (auto; now apply NoDup_app_r in Hnd). destruct (arrives_member _ _ _ _ _ _); reflexivity.
Qed.
Lemma to_member_unknown os' num k t v : (forall ms, In ms os' -> ~ In num (map fst ms)) -> forall oxs, to_member (uotab os') (num, k, t, v) oxs = Some oxs.
Proof.
  induction os' as [|ms os' IH]; intros H [|o oxs]; try reflexivity. cbn [uotab map to_member].
  rewrite (lookup_map (fun u' => (KOpt, sdefault u', fun u => updated u u'))). destruct (lookup ms num) as [u|] eqn:E.
  - exfalso. apply (H ms (or_introl eq_refl)). apply lookup_In in E. apply (in_map fst) in E. exact E.
  - unfold uotab in IH. rewrite IH by (intros ms0 H0; apply H; now right). reflexivity.
Qed.

(** What is still to come meets a field of a valid object. *)
Definition pending (fs' : list fdesc) (os' : list odesc) (ns : list Z) (xs : list sval) (oxs : list (Z * sval)) : Prop :=
  (forall i n k' t', nth_error fs' i = Some (n, k', t') -> In n ns -> exists x, nth_error xs i = Some x /\ seen_field k' t' x)
  /\ (forall j ms n t', nth_error os' j = Some ms -> lookup ms n = Some t' -> In n ns -> exists o, nth_error oxs j = Some o /\ seen t' (member_start n t' o)).

Lemma pending_less fs' os' n ns xs oxs : pending fs' os' (n :: ns) xs oxs -> pending fs' os' ns xs oxs.
Proof. intros [H1 H2]. split; intros; [eapply H1|eapply H2]; eauto; now right. Qed.
Lemma pending_field fs' os' i n k' t' ns xs oxs y : NoDup (n :: ns) -> nth_error fs' i = Some (n, k', t') -> pending fs' os' (n :: ns) xs oxs ->
  pending fs' os' ns (upd i y xs) oxs.
Proof.
  intros Hnd Hi [H1 H2]. inversion Hnd; subst. split.
  - intros i2 n2 k2 t2 Hi2 Hn2. destruct (Nat.eq_dec i i2) as [<-|Hne].
    + rewrite Hi in Hi2. injection Hi2 as <- <- <-. contradiction.
    + rewrite nth_error_upd_other by auto. eapply H1; eauto. now right.
  - intros. eapply H2; eauto. now right.
Qed.
Lemma pending_member fs' os' j n ms t' ns xs oxs y : NoDup (n :: ns) -> desc_ok (EMsg fs' os') -> nth_error os' j = Some ms -> lookup ms n = Some t' -> pending fs' os' (n :: ns) xs oxs ->
  pending fs' os' ns xs (upd j (n, y) oxs).
Proof.
  intros Hnd Hd Hj Hl [H1 H2]. inversion Hnd; subst. split.
  - intros. eapply H1; eauto. now right.
  - intros j2 ms2 n2 t2 Hj2 Hl2 Hn2. destruct (Nat.eq_dec j j2) as [<-|Hne].
    + destruct (H2 _ _ _ _ Hj Hl (or_introl eq_refl)) as (o & Ho & _). exists (n, y). rewrite nth_error_upd_same by (eapply nth_error_lt; eauto). split; [reflexivity|].
      unfold member_start. cbn [fst]. destruct (Z.eqb_spec n2 n) as [->|]; [contradiction|]. apply seen_default. eapply desc_member; eauto.
    + rewrite nth_error_upd_other by auto. eapply H2; eauto. now right.
Qed.

Lemma rows_upd fs' os' : desc_ok (EMsg fs' os') -> forall rs xs oxs, NoDup (map rnum rs) ->
  (forall num k t v k' t', In (num, k, t, v) rs -> In (num, k', t') (declared fs' os') -> same_kind k k' /\ compatible t t') ->
  Forall row_ok rs -> Forall (fun '(n, k, t, v) => 1 <= n < 2 ^ 29 /\ desc_ok t /\ upd_ok t) rs -> zlen (enc_rows rs) < 2 ^ 32 ->
  pending fs' os' (map rnum rs) xs oxs ->
  let w := all_arrive (utab fs') (uotab os') (map nrow rs) xs oxs in
  goes fs' os' (okb w) (SvM xs oxs) (enc_rows rs) (val w).
Proof.
  intros Hd'. pose proof Hd' as (Hnd' & _). pose proof (NoDup_fields _ _ Hd') as Hndf.
  assert (Hndo : NoDup (flat_map (map fst) os')) by (unfold field_numbers in Hnd'; now apply NoDup_app_r in Hnd').
  assert (Hdis : forall n, In n (map (fun '(m, _, _) => m) fs') -> In n (flat_map (map fst) os') -> False) by (intros n; now apply NoDup_app_disjoint).
  induction rs as [|[[[num k] t] v] rs IH]; intros xs oxs Hnd V1 Hok Hall Hz Hp w; subst w.
  - cbn [map all_arrive okb val]. apply goes_nil.
  - inversion Hok as [|? ? Hrow Hok2]; subst. inversion Hall as [|? ? Hrow2 Hall2]; subst. destruct Hrow2 as (Hnum & Hdt & Hmt). cbn [map rnum fst] in Hnd, Hp.
    assert (Hrec : forall ys oys, pending fs' os' (map rnum rs) ys oys ->
        goes fs' os' (okb (all_arrive (utab fs') (uotab os') (map nrow rs) ys oys)) (SvM ys oys) (enc_rows rs) (val (all_arrive (utab fs') (uotab os') (map nrow rs) ys oys))).
    { intros ys oys Hp2. inversion Hnd; subst. apply IH; auto; [intros n0 k0 t0 v0 k1 t1 Hi0; apply (V1 n0 k0 t0 v0); now right|].
      unfold enc_rows in Hz. cbn [flat_map] in Hz. fold (enc_rows rs) in Hz. rewrite zlen_app in Hz.
      match type of Hz with zlen ?a + zlen ?b < _ => pose proof (zlen_nonneg a); lia end. }
    unfold enc_rows in *. cbn [flat_map] in *. fold (enc_rows rs) in *. rewrite zlen_app in Hz. pose proof (zlen_nonneg (enc_rows rs)).
    pose proof (zlen_nonneg (enc_field num k t (enc t) v)). cbn [map all_arrive]. change (nrow (num, k, t, v)) with (num, k, t, norm_field k t (norm t) v).
    set (nv := norm_field k t (norm t) v) in *. destruct Hrow as (oi & pres & y & Hwy & Ev).
    destruct (field_cases fs' os' num) as [(i & k' & t' & Hi)|[(j & ms' & t' & Hj & Hlk)|Hno]].
    + (* a field of the receiver *)
      assert (Hin' : In (num, k', t') fs') by (eapply nth_error_In; eauto).
      destruct (V1 _ _ _ _ _ _ (or_introl eq_refl) ltac:(unfold declared; apply in_or_app; left; exact Hin')) as [Hk Hvt].
      destruct (desc_field _ _ _ _ _ _ Hd' Hi) as (Hdt' & _ & _).
      assert (Hnm : forall ms', In ms' os' -> ~ In num (map fst ms')).
      { intros ms' Hms' H'. apply (Hdis num); [apply in_map_iff; exists (num, k', t'); auto|]. apply in_flat_map. eauto. }
      destruct (proj1 Hp _ _ _ _ Hi (or_introl eq_refl)) as (x & Hx & Hsx).
      rewrite (to_field_known fs' num k t nv Hndf i k' t' xs x Hi Hx), (to_member_unknown os' num k t nv Hnm).
      assert (Hg : goes fs' os' (okb (arrives k k' (updated t t') (sdefault t') nv x)) (SvM xs oxs) (enc_field num k t (enc t) v)
                     (SvM (upd i (val (arrives k k' (updated t t') (sdefault t') nv x)) xs) oxs)).
      { subst nv v. eapply field_upd; eauto. lia. }
      destruct (arrives k k' (updated t t') (sdefault t') nv x) as [u|]; cbn [okb val option_map] in *.
      * match goal with |- VersionProofs.goes _ _ _ (okb ?w) _ _ _ => change (okb w) with (true && okb w) end.
        eapply goes_app; [exact Hg|]. intros _. apply Hrec. eapply pending_field; eauto.
      * change false with (false && true). eapply goes_app; [exact Hg|discriminate].
    + (* a member of a oneof of the receiver *)
      assert (Hms' : In ms' os') by (eapply nth_error_In; eauto).
      assert (Hn' : In num (map fst ms')) by (apply lookup_In in Hlk; apply (in_map fst) in Hlk; exact Hlk).
      destruct (V1 _ _ _ _ _ _ (or_introl eq_refl) (in_members fs' os' j ms' num t' Hj Hlk)) as [Hk Hvt].
      assert (Hk2 : k = KPlain \/ k = KOpt) by (destruct k; try contradiction; auto).
      assert (Hw : wt t y) by (destruct Hk2 as [-> | ->]; exact Hwy).
      destruct (desc_member _ _ _ _ _ _ Hd' Hj Hlk) as (Hdt' & _).
      assert (Hnf : ~ In num (map (fun '(m, _, _) => m) fs')) by (intros H'; apply (Hdis num H'); apply in_flat_map; eauto).
      destruct (proj2 Hp _ _ _ _ Hj Hlk (or_introl eq_refl)) as (o & Ho & Hso).
      rewrite (to_field_unknown fs' num k t nv Hnf), (to_member_known os' num k t nv j ms' t' oxs o Hndo Hj Hlk Ho).
      pose proof (given_row num k t oi pres y Hk2 Hw) as HG. cbv zeta in HG. rewrite <- Ev in HG. fold nv in HG. unfold arrives_member.
      destruct HG as [(E1 & E2)|(E1 & E2)]; rewrite E1, E2 in *.
      * cbn [option_map app]. rewrite upd_same by exact Ho. apply Hrec. now apply pending_less in Hp.
      * change (if num =? fst o then match snd o with SvSome x => x | _ => sdefault t' end else sdefault t') with (member_start num t' o).
        pose proof (zlen_enc_elem num t (enc t (view t y))).
        assert (Hg : goes fs' os' (okb (updated t t' (member_start num t' o) (norm t (view t y)))) (SvM xs oxs) (enc_elem num t (enc t (view t y)))
                       (SvM xs (upd j (num, SvSome (val (updated t t' (member_start num t' o) (norm t (view t y))))) oxs))).
        { apply goes_record. intros tail. pose proof (elem_upd t y t' _ Hmt Hvt Hw Hso Hdt Hdt' ltac:(lia) tail) as He. cbv zeta in He.
          rewrite enc_elem_rec, (compatible_wiretype _ _ Hvt), <- app_assoc. unfold outcome in *. destruct (okb _).
          - eapply (rread_oneof false bd fs' os' xs oxs j ms' num t' o _ _ NoErrors _ tail); eauto. now apply tag_varint32.
          - destruct He as (n & rr & He). do 2 eexists. eapply (rread_oneof false bd fs' os' xs oxs j ms' num t' o); eauto. now apply tag_varint32. }
        destruct (updated t t' (member_start num t' o) (norm t (view t y))) as [u|]; cbn [okb val option_map] in *.
        -- match goal with |- VersionProofs.goes _ _ _ (okb ?w) _ _ _ => change (okb w) with (true && okb w) end.
           eapply goes_app; [exact Hg|]. intros _. apply Hrec. eapply pending_member; eauto.
        -- change false with (false && true). eapply goes_app; [exact Hg|discriminate].
    + (* unknown *)
      assert (Hno' : ~ In num (map (fun '(m, _, _) => m) fs')) by (unfold field_numbers in Hno; rewrite in_app_iff in Hno; tauto).
      assert (Hnm : forall ms', In ms' os' -> ~ In num (map fst ms')).
      { intros ms' Hms' H'. apply Hno. unfold field_numbers. apply in_or_app. right. apply in_flat_map. eauto. }
      rewrite (to_field_unknown fs' num k t nv Hno'), (to_member_unknown os' num k t nv Hnm).
      match goal with |- VersionProofs.goes _ _ _ (okb ?w) _ _ _ => change (okb w) with (true && okb w) end.
      eapply goes_app.
      * rewrite Ev in *. apply (unknown_field_goes bd fs' os' oxs num k t oi pres y xs Hno Hdt Hnum Hwy). lia.
      * intros _. apply Hrec. now apply pending_less in Hp.
Qed.

Lemma seen_pending fs os xs oxs ns : desc_ok (EMsg fs os) -> all2 (fun '(_, k, t) => seen_field k t) fs xs -> all2 seen_oneof os oxs -> pending fs os ns xs oxs.
Proof.
  intros Hd H1 H2. split.
  - clear H2 Hd. revert xs H1. induction fs as [|[[m j] u] fs IH]; intros [|x xs] H1 i n k' t' Hi Hns; cbn [all2] in H1; try contradiction; [destruct i; discriminate|].
    destruct H1 as [Hx H1], i as [|i]; cbn [nth_error] in *; [injection Hi as -> -> ->; eauto|]. eapply IH; eauto.
  - intros j ms n t' Hj Hl _. pose proof (desc_member _ _ _ _ _ _ Hd Hj Hl) as (Hdt & Hn).
    assert (Ho : exists o, nth_error oxs j = Some o /\ seen_oneof ms o).
    { clear -H2 Hj. revert j oxs H2 Hj. induction os as [|ms0 os IH]; intros j [|o oxs] H2 Hj; cbn [all2] in H2; try contradiction; [destruct j; discriminate|].
      destruct H2 as [Ho H2], j as [|j]; cbn [nth_error] in *; [injection Hj as ->; eauto|eauto]. }
    destruct Ho as (o & Ho & Hs). exists o. split; [exact Ho|]. unfold member_start. destruct Hs as [->|(num & t2 & y & El & -> & Hy)]; cbn [fst snd].
    + destruct (n =? 0); now apply seen_default.
    + destruct (Z.eqb_spec n num) as [->|]; [|now apply seen_default]. rewrite Hl in El. injection El as <-. exact Hy.
Qed.

Lemma object_rows2 fs os pres xs ovs : let t := EMsg fs os in desc_ok t -> wt t (VM pres xs ovs) ->
  exists rs, (exists vs vos, norm t (view t (VM pres xs ovs)) = SvM vs vos /\ field_rows fs vs ++ oneof_rows os vos = map nrow rs)
    /\ enc t (view t (VM pres xs ovs)) = enc_rows rs /\ Forall row_ok rs /\ map rnum rs = field_numbers fs os
    /\ (forall n k u v, In (n, k, u, v) rs -> In (n, k, u) (declared fs os)).
Proof.
  intros t Hd Hw. subst t. pose proof Hd as (Hnd & _ & Hdf & Hdo). cbn [wt] in Hw. destruct Hw as (_ & _ & Hw1 & Hw2).
  assert (Hndo : NoDup (flat_map (map fst) os)) by (unfold field_numbers in Hnd; now apply NoDup_app_r in Hnd).
  exists (field_rows fs (view_fields (vtab fs) 0 pres xs) ++ oneof_rows os (view_oneofs (votab os) ovs)).
  assert (L1 : length fs = length (view_fields (vtab fs) 0 pres xs)).
  { clear -Hw1. revert xs Hw1. generalize 0. induction fs as [|[[n k] t] fs IH]; intros z [|x xs] Hw; cbn [all2] in Hw; try contradiction; [reflexivity|].
    cbn [vtab map view_fields length]. f_equal. now apply IH. }
  assert (L2 : length os = length (view_oneofs (votab os) ovs)).
  { clear -Hw2. revert ovs Hw2. induction os as [|ms os IH]; intros [|o ovs] Hw; cbn [all2] in Hw; try contradiction; [reflexivity|].
    cbn [votab map view_oneofs length]. f_equal. now apply IH. }
  split; [|split; [|split; [|split]]].
  - rewrite view_tab, norm_tab. do 2 eexists. split; [reflexivity|]. rewrite field_rows_norm, oneof_rows_norm by exact Hndo. now rewrite map_app.
  - rewrite view_tab, enc_tab. unfold enc_rows. rewrite flat_map_app. fold (enc_rows (field_rows fs (view_fields (vtab fs) 0 pres xs))).
    fold (enc_rows (oneof_rows os (view_oneofs (votab os) ovs))). now rewrite field_rows_enc, oneof_rows_enc.
  - apply Forall_app. split; [now apply field_rows_ok|now apply oneof_rows_ok].
  - rewrite map_app, field_rows_num, oneof_rows_num by assumption. reflexivity.
  - intros n k u v. apply declared_rows.
Qed.

Lemma declared_number fs os n k t : In (n, k, t) (declared fs os) -> In n (field_numbers fs os).
Proof.
  intros Hin. unfold declared, field_numbers in *. apply in_or_app. apply in_app_iff in Hin. destruct Hin as [Hin|Hin].
  - left. apply in_map_iff. exists (n, k, t). auto.
  - right. apply in_flat_map in Hin. destruct Hin as (ms & Hms & Hin). apply in_flat_map. exists ms. split; [exact Hms|].
    apply in_map_iff in Hin. destruct Hin as ([m u] & E & Hin). injection E as <- <- <-. apply in_map_iff. exists (m, u). auto.
Qed.
Lemma declared_all (P : ety -> Prop) fs os n k t : Forall (fun f : fdesc => P (snd f)) fs -> Forall (Forall (fun m : Z * ety => P (snd m))) os -> In (n, k, t) (declared fs os) -> P t.
Proof.
  intros Hf Ho Hin. unfold declared in Hin. apply in_app_iff in Hin. destruct Hin as [Hin|Hin].
  - exact (proj1 (Forall_forall _ _) Hf _ Hin).
  - apply in_flat_map in Hin. destruct Hin as (ms & Hms & Hin). apply in_map_iff in Hin. destruct Hin as ([m u0] & E & Hin). injection E as <- <- <-.
    exact (proj1 (Forall_forall _ _) (proj1 (Forall_forall _ _) Ho _ Hms) _ Hin).
Qed.
Lemma declared_desc fs os n k t : desc_ok (EMsg fs os) -> In (n, k, t) (declared fs os) -> desc_ok t.
Proof.
  intros (_ & _ & Hdf & Hdo). apply declared_all.
  - apply all_Forall in Hdf. eapply Forall_impl; [|exact Hdf]. intros [[m j] u] H. cbn in *. tauto.
  - apply all_Forall in Hdo. eapply Forall_impl; [|exact Hdo]. intros ms H. cbn in H. apply all_Forall in H. eapply Forall_impl; [|exact H]. now intros [m u].
Qed.

Lemma message_upd fs os fs' os' v x : let t := EMsg fs os in let t' := EMsg fs' os' in
  Forall (fun f : fdesc => upd_ok (snd f)) fs -> Forall (Forall (fun m : Z * ety => upd_ok (snd m))) os ->
  compatible t t' -> wt t v -> seen t' x -> desc_ok t -> desc_ok t' -> zlen (enc t (view t v)) < 2 ^ 32 ->
  let w := updated t t' x (norm t (view t v)) in
  outcome (okb w) (mread false bd fs' os' x (enc t (view t v))) (val w) [].
Proof.
  intros t t' Hf Ho Hver Hw Hx Hd Hd' Hz w. subst t t' w. destruct (seen_msg _ _ _ Hx) as (xs & oxs & -> & X1 & X2). destruct v as [| | | |pres ys oys]; try contradiction.
  destruct (object_rows2 fs os pres ys oys Hd Hw) as (rs & (vs & vos & En & Er) & Ee & Hok & Hnum & Hdecl). rewrite En, updated_tab, Er, Ee in *.
  inversion Hver as [| |? ? ? ? V1]; subst. pose proof Hd as (Hnd & Hrange & Hdf & Hdo). apply all_Forall in Hrange.
  assert (Hg := rows_upd fs' os' Hd' rs xs oxs). cbv zeta in Hg.
  specialize (Hg ltac:(now rewrite Hnum) ltac:(intros; eapply V1; eauto) Hok).
  assert (Ha : Forall (fun '(n, k, t, v) => 1 <= n < 2 ^ 29 /\ desc_ok t /\ upd_ok t) rs).
  { apply Forall_forall. intros [[[n k] t] v] Hin. apply Hdecl in Hin. split; [|split].
    - exact (proj1 (Forall_forall _ _) Hrange n (declared_number _ _ _ _ _ Hin)).
    - exact (declared_desc _ _ _ _ _ Hd Hin).
    - exact (declared_all upd_ok _ _ _ _ _ Hf Ho Hin). }
  specialize (Hg Ha Hz (seen_pending _ _ _ _ _ Hd' X1 X2) []). rewrite app_nil_r in Hg. unfold outcome.
  destruct (all_arrive (utab fs') (uotab os') (map nrow rs) xs oxs) as [w|] eqn:Ew; cbn [okb val] in *; [|exact Hg].
  apply Hg. assert (exists a b, w = SvM a b) as (a & b & ->).
  { clear -Ew. revert xs oxs Ew. generalize (map nrow rs) as l. induction l as [|r l IH]; intros xs oxs Ew; cbn [all_arrive] in Ew; [injection Ew as <-; eauto|].
    destruct (to_field _ r xs); [|discriminate]. destruct (to_member _ r oxs); [eauto|discriminate]. }
  apply mread_end. apply varint_cut; [cbn; lia|constructor].
Qed.
End Receiver.

Theorem upd_all t : upd_ok t.
Proof.
  induction t as [sc|st max|fs os Hf Ho] using ety_ind'; intros v t' x Hver Hw Hx Hd Hd' Hz fs' os' ->; [inversion Hver..|].
  apply message_upd; auto.
Qed.

(** ** The update is sent *)
Theorem version_update fs os fs' os' v v0 : let t := EMsg fs os in let t' := EMsg fs' os' in
  desc_ok t -> desc_ok t' -> compatible t t' -> wt t v -> zlen (enc t (view t v)) < 2 ^ 32 -> wt t' v0 -> clean t' v0 ->
  forall cap b c n b', wfix_rel cap b c (Some n) -> serialize t v _ (wfix_ops cap) b = Done (NoErrors, b') ->
  exists bytes, wfix_content b' = wfix_content b ++ bytes /\
  forall S (R : rops S) rel, reader_ok R rel -> forall s, rel s bytes -> forall fuel, (length bytes < fuel)%nat ->
  match updated t t' (view t' v0) (norm t (view t v)) with
  | Some w => exists v' s', deserialize fuel t' S R v0 s = Done (NoErrors, v', s') /\ view t' v' = w
  | None => exists v' s', deserialize fuel t' S R v0 s = Done (ArrayFull, v', s') /\ wt t' v'
  end.
Proof.
  intros t t' Hd Hd' Hver Hw Hz Hw0 Hc0 cap b c n b' Hr E. exists (enc t (view t v)). split; [eapply serialize_is_enc; eauto|].
  intros S R rel ok s Hs fuel Hfu.
  pose proof (message_upd false fs os fs' os' v (view t' v0) ltac:(apply Forall_forall; intros; apply upd_all)
    ltac:(apply Forall_forall; intros; apply Forall_forall; intros; apply upd_all) Hver Hw (ex_intro _ v0 (conj Hw0 eq_refl)) Hd Hd' Hz) as H.
  cbv zeta in H. fold t t' in H. unfold outcome in H. destruct (updated t t' (view t' v0) (norm t (view t v))) as [w|]; cbn [okb val] in H.
  - destruct (decode_reads fs' os' v0 false false _ _ _ _ Hd' Hw0 Hc0 H S R rel ok ltac:(discriminate) s Hs fuel Hfu) as (v' & s' & E' & _ & _ & _ & _ & Hv).
    exists v', s'. split; [exact E'|]. exact (Hv (or_intror eq_refl)).
  - destruct H as (n0 & r & H). destruct (decode_reads fs' os' v0 false false _ _ _ _ Hd' Hw0 Hc0 H S R rel ok ltac:(discriminate) s Hs fuel Hfu) as (v' & s' & E' & _ & Hw' & _).
    exists v', s'. auto.
Qed.

(** ** The two cases known before: a new object (C65), and one class (C86) *)
Lemma outcomes_agree fs os v0 bs o ok w : let t := EMsg fs os in desc_ok t -> wt t v0 -> clean t v0 -> Forall is_byte bs -> zlen bs < 2 ^ 32 ->
  outcome (okb o) (mread false false fs os (view t v0) bs) (val o) [] -> outcome ok (mread false false fs os (view t v0) bs) w [] ->
  o = if ok then Some w else None.
Proof.
  intros t Hd Hw Hc Hb Hz H1 H2. unfold outcome in *.
  assert (HD : forall e new rest, mread false false fs os (view t v0) bs e new rest -> exists v' s',
            deserialize (S (length bs)) t _ (rfix_ops (zlen bs)) v0 (rfix_of bs) = Done (e, v', s') /\ (e = NoErrors -> view t v' = new)).
  { intros e new rest H. destruct (decode_reads fs os v0 false false _ _ _ _ Hd Hw Hc H _ _ _ (rfix_ok (zlen bs)) ltac:(discriminate) _ (rfix_of_rel bs Hz Hb) (S (length bs)) ltac:(lia))
      as (v' & s' & E & _ & _ & _ & _ & Hv). exists v', s'. split; [exact E|]. intros He. apply Hv. now right. }
  destruct o as [x|], ok; cbn [okb val] in *.
  - destruct (HD _ _ _ H1) as (a & b & E1 & V1), (HD _ _ _ H2) as (a' & b' & E2 & V2). rewrite E1 in E2. injection E2 as <- <-.
    now rewrite <- (V1 eq_refl), <- (V2 eq_refl).
  - destruct H2 as (n & r & H2). destruct (HD _ _ _ H1) as (a & b & E1 & _), (HD _ _ _ H2) as (a' & b' & E2 & _). rewrite E1 in E2. discriminate.
  - destruct H1 as (n & r & H1). destruct (HD _ _ _ H1) as (a & b & E1 & _), (HD _ _ _ H2) as (a' & b' & E2 & _). rewrite E1 in E2. discriminate.
  - reflexivity.
Qed.

Lemma version_compatible : forall t t', version t t' -> compatible t t'.
Proof.
  fix IH 3. intros t t' H. destruct H as [sc sc' H|st max st' max'|fs os fs' os' V1 V2].
  - now constructor.
  - constructor.
  - constructor. intros num k u k' u' H1 H2. destruct (V1 num k u k' u' H1 H2) as [Hk Hv]. split; [exact Hk|]. exact (IH u u' Hv).
Qed.

Lemma update_new fs os fs' os' v : let t := EMsg fs os in let t' := EMsg fs' os' in
  desc_ok t -> desc_ok t' -> version t t' -> wt t v -> zlen (enc t (view t v)) < 2 ^ 32 ->
  let w := carry t t' (norm t (view t v)) in updated t t' (sdefault t') (norm t (view t v)) = if fits t' w then Some w else None.
Proof.
  intros t t' Hd Hd' Hver Hw Hz w. destruct (default_ok t' Hd') as (Hw0 & Hc0 & Hv0).
  eapply (outcomes_agree fs' os' (default_value t') (enc t (view t v))); eauto.
  - now apply enc_bytes.
  - fold t'. rewrite Hv0. apply message_upd; auto; [apply Forall_forall; intros; apply upd_all|apply Forall_forall; intros; apply Forall_forall; intros; apply upd_all|now apply version_compatible|].
    now apply seen_default.
  - fold t'. rewrite Hv0. apply message_read; auto; [apply Forall_forall; intros; apply msg_all|apply Forall_forall; intros; apply Forall_forall; intros; apply msg_all].
Qed.

Lemma declared_unique fs os n k t k' t' : desc_ok (EMsg fs os) -> In (n, k, t) (declared fs os) -> In (n, k', t') (declared fs os) -> (k, t) = (k', t').
Proof.
  intros (Hnd & _) H1 H2. assert (E : field_numbers fs os = map (fun '(m, _, _) => m) (declared fs os)).
  { unfold field_numbers, declared. rewrite map_app. f_equal. clear. induction os as [|ms os IH]; [reflexivity|]. cbn [flat_map]. rewrite map_app, <- IH. f_equal.
    rewrite map_map. apply map_ext. now intros [m u]. }
  rewrite E in Hnd. clear E. apply In_nth_error in H1, H2. destruct H1 as (i & H1), H2 as (j & H2).
  assert (i = j) by (eapply NoDup_field; eauto). subst j. congruence.
Qed.
Lemma compatible_refl t : desc_ok t -> compatible t t.
Proof.
  induction t as [sc|st max|fs os Hf Ho] using ety_ind'; intros Hd; constructor.
  - apply kept_same.
  - intros n k u k' u' H1 H2. pose proof (declared_unique _ _ _ _ _ _ _ Hd H1 H2) as E. injection E as <- <-. split; [destruct k; exact I|].
    apply (declared_all (fun u => desc_ok u -> compatible u u) _ _ _ _ _ Hf Ho H1). eapply declared_desc; eauto.
Qed.
Lemma update_same fs os v v0 : let t := EMsg fs os in
  desc_ok t -> wt t v -> zlen (enc t (view t v)) < 2 ^ 32 -> wt t v0 -> clean t v0 ->
  let w := merge t (view t v0) (view t v) in updated t t (view t v0) (norm t (view t v)) = if fits t w then Some w else None.
Proof.
  intros t Hd Hw Hz Hw0 Hc0 w.
  eapply (outcomes_agree fs os v0 (enc t (view t v))); eauto.
  - now apply enc_bytes.
  - apply message_upd; auto; [apply Forall_forall; intros; apply upd_all|apply Forall_forall; intros; apply Forall_forall; intros; apply upd_all|now apply compatible_refl|].
    exists v0. auto.
  - apply message_merge; auto; [apply Forall_forall; intros; apply merge_all|apply Forall_forall; intros; apply Forall_forall; intros; apply merge_all|]. exists v0. auto.
Qed.
Lemma update_spec : (forall t t', version t t' -> compatible t t') /\ (forall t, desc_ok t -> compatible t t)
  /\ (forall fs os fs' os' v, let t := EMsg fs os in let t' := EMsg fs' os' in
       desc_ok t -> desc_ok t' -> version t t' -> wt t v -> zlen (enc t (view t v)) < 2 ^ 32 ->
       let w := carry t t' (norm t (view t v)) in updated t t' (sdefault t') (norm t (view t v)) = if fits t' w then Some w else None)
  /\ (forall fs os v v0, let t := EMsg fs os in
       desc_ok t -> wt t v -> zlen (enc t (view t v)) < 2 ^ 32 -> wt t v0 -> clean t v0 ->
       let w := merge t (view t v0) (view t v) in updated t t (view t v0) (norm t (view t v)) = if fits t w then Some w else None).
Proof. split; [exact version_compatible|]. split; [exact compatible_refl|]. split; [exact update_new|exact update_same]. Qed.
