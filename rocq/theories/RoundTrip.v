(** The encoding of an object decodes, record by record, to the value it shows. *)
From Verif Require Import Base Buffers Wire Schema Fields Message Spec Contracts BitLemmas
  ReadProofs ScalarProofs BufferProofs Struct SerProofs Tables DecodeProofs.
From Coq Require Import ZifyBool ZifyNat ZifyN.
Ltac Zify.zify_post_hook ::= Z.div_mod_to_equations.

Definition etab (fs : list fdesc) := map (fun '(num, k, t) => (num, k, t, enc t)) fs.
Definition ntab (fs : list fdesc) := map (fun '(_, k, t) => (k, t, norm t)) fs.
Definition eotab (os : list odesc) := map (map (fun '(num, t) => (num, (t, enc t)))) os.
Definition notab (os : list odesc) := map (map (fun '(num, t) => (num, norm t))) os.
Definition sdtab (fs : list fdesc) := map (fun '(_, k, t) => sdefault_field k (sdefault t)) fs.

Lemma enc_tab fs os vs ovs : enc (EMsg fs os) (SvM vs ovs) = enc_fields (etab fs) vs ++ enc_oneofs (eotab os) ovs.
Proof. reflexivity. Qed.
Lemma norm_tab fs os vs ovs : norm (EMsg fs os) (SvM vs ovs) = SvM (norm_fields (ntab fs) vs) (norm_oneofs (notab os) ovs).
Proof. reflexivity. Qed.
Lemma sdefault_tab fs os : sdefault (EMsg fs os) = SvM (sdtab fs) (map (fun _ => (0, SvNone)) os).
Proof. reflexivity. Qed.

(** Encodings are byte strings. *)
Lemma tag_bytes num w : 0 <= num < 2 ^ 29 -> Forall is_byte (tag num w).
Proof. intros H. apply varint_bytes. destruct w; cbn; lia. Qed.

(** An element that encodes to nothing shows its default value. *)
Lemma enc_nil_default t : forall v, wt t v -> enc t (view t v) = [] -> norm t (view t v) = sdefault t.
Proof.
  induction t as [sc|st max|fs os Hf Ho] using ety_ind'; intros v Hw He.
  - destruct v as [z| | | |]; try contradiction. cbn in *. exfalso. eapply scalar_enc_nonempty; eauto.
  - destruct v; try contradiction. cbn in *. now rewrite He.
  - destruct v as [| | | |pres xs ovs]; try contradiction. rewrite view_tab in *. rewrite enc_tab in He.
    apply app_eq_nil in He. destruct He as [He1 He2]. rewrite norm_tab, sdefault_tab. cbn [wt] in Hw. destruct Hw as (_ & _ & Hw1 & Hw2).
    f_equal.
    + clear He2 Hw2 Ho ovs. revert xs Hw1 He1. generalize 0 as i.
      induction Hf as [|[[num k] t] fs Ht Hf IH]; intros i xs Hw He; destruct xs as [|x xs]; cbn [all2] in Hw; try contradiction; [reflexivity|].
      destruct Hw as [Hwx Hw].
      cbn [vtab etab ntab sdtab map view_fields enc_fields norm_fields] in *. apply app_eq_nil in He. destruct He as [He1 He2].
      f_equal; [|eapply IH; eauto]. cbn [snd] in Ht.
      destruct k as [| |max|]; cbn [view_field enc_field norm_field sdefault_field wt_field] in *.
      * destruct t as [sc|st max|fs' os'].
        -- destruct x as [z| | | |]; try contradiction. cbn [view] in *. destruct (is_zero sc z); [reflexivity|].
           exfalso. cbn [enc_elem enc] in He1. apply app_eq_nil in He1. destruct He1 as [E _]. now apply tag_nonempty in E.
        -- rewrite <- (Ht x Hwx). destruct x; try contradiction. reflexivity.
           cbn [enc_elem] in He1. destruct (enc _ _) as [|b p] eqn:Ee; [reflexivity|].
           destruct (app_eq_nil _ _ He1) as [E _]. now apply tag_nonempty in E.
        -- rewrite <- (Ht x Hwx). destruct x; try contradiction. reflexivity.
           cbn [enc_elem] in He1. destruct (enc (EMsg fs' os') _) as [|b p] eqn:Ee; [reflexivity|].
           destruct (app_eq_nil _ _ He1) as [E _]. now apply tag_nonempty in E.
      * destruct (present pres i); [|reflexivity]. exfalso.
        destruct t; cbn [enc_elem] in He1; destruct (app_eq_nil _ _ He1) as [E _]; now apply tag_nonempty in E.
      * destruct x as [| | |len data|]; try contradiction.
        destruct (map (view t) (firstn (Z.to_nat len) data)) as [|y l]; [reflexivity|exfalso].
        destruct t; cbn [flat_map enc_elem] in He1; [|apply app_eq_nil in He1; destruct He1 as [He1 _]..];
          destruct (app_eq_nil _ _ He1) as [E _]; now apply tag_nonempty in E.
      * reflexivity.
    + clear He1 Hw1 Hf xs. revert ovs Hw2 He2.
      induction os as [|ms os IH]; intros ovs Hw He; destruct ovs as [|o ovs]; cbn [all2] in Hw; try contradiction; [reflexivity|].
      destruct Hw as [Hwo Hw]. inversion Ho; subst.
      cbn [votab eotab notab map view_oneofs enc_oneofs norm_oneofs] in *. apply app_eq_nil in He. destruct He as [He1 He2].
      f_equal; [|apply IH; auto]. clear IH. unfold wt_oneof, view_oneof, enc_oneof, norm_oneof in *.
      rewrite (lookup_map wt) in Hwo. rewrite (lookup_map view) in He1 |- *. destruct (lookup ms (fst o)) as [t|] eqn:El; cbn [option_map fst snd] in *.
      * rewrite lookup_map, El in He1. cbn [option_map] in He1. exfalso.
        destruct t; cbn [enc_elem] in He1; destruct (app_eq_nil _ _ He1) as [E _]; now apply tag_nonempty in E.
      * clear He1. destruct (lookup _ 0); reflexivity.
Qed.

(** From here on decoding is without records of unknown fields ([u = false]) or with them. *)
Section Unknown.
Variable u : bool.
Local Notation edec := (edecu u).
Local Notation mdec := (mdecu u).
Local Notation rdec := (rdecu u).

Lemma mdec_app fs os a : forall old mid b new, mdec fs os old a mid -> mdec fs os mid b new -> mdec fs os old (a ++ b) new.
Proof.
  intros old mid b new H Hb. revert b new Hb. remember fs as fs0. remember os as os0.
  induction H as [fs1 os1 vs ovs|fs1 os1 v0 r v1 bs v2 Hr Hm IH]; intros b new Hb; [exact Hb|].
  rewrite <- app_assoc. econstructor; eauto.
Qed.

Lemma mdec_one fs os vs ovs r vs' ovs' : rdec fs os (SvM vs ovs) r (SvM vs' ovs') -> mdec fs os (SvM vs ovs) r (SvM vs' ovs').
Proof. intros H. rewrite <- (app_nil_r r). econstructor; [exact H|constructor]. Qed.

Lemma nth_error_mid {A} (l : list A) x l' : nth_error (l ++ x :: l') (length l) = Some x.
Proof. rewrite nth_error_app2 by lia. now rewrite Nat.sub_diag. Qed.
Lemma upd_mid {A} (l : list A) x y l' : upd (length l) y (l ++ x :: l') = l ++ y :: l'.
Proof. induction l; cbn; congruence. Qed.

Definition edec_ok (t : ety) : Prop := forall v, wt t v -> desc_ok t -> zlen (enc t (view t v)) < 2 ^ 32 ->
  edec t (sdefault t) (enc t (view t v)) (norm t (view t v)).

Lemma tag_varint32 num w : 1 <= num < 2 ^ 29 -> varint32 (tag num w) (num * 8 + wt_code w).
Proof. intros H. apply varint_varint32. destruct w; cbn; lia. Qed.

Lemma enc_elem_shape num t p : enc_elem num t p = tag num (elem_wiretype t) ++ (match t with EScalar _ => p | _ => delimited p end).
Proof. destruct t; reflexivity. Qed.

Lemma enc_body t p : zlen p < 2 ^ 32 -> body t p (match t with EScalar _ => p | _ => delimited p end).
Proof.
  intros H. pose proof (zlen_nonneg p).
  destruct t; cbn [body]; [reflexivity|exists (varint (zlen p)); split; [now apply varint_varint32|reflexivity]..].
Qed.

Lemma zlen_enc_elem num t p : zlen p <= zlen (enc_elem num t p).
Proof.
  rewrite enc_elem_shape, zlen_app. pose proof (zlen_nonneg (tag num (elem_wiretype t))). pose proof (zlen_delimited p). destruct t; lia.
Qed.

Lemma packed_enc sc l : Forall (wt (EScalar sc)) l ->
  packed_dec sc (flat_map (enc (EScalar sc)) (map (view (EScalar sc)) l))
    (map (fun v => match v with VS z => z | _ => 0 end) l)
  /\ map SvZ (map (fun v => match v with VS z => z | _ => 0 end) l) = map (norm (EScalar sc)) (map (view (EScalar sc)) l).
Proof.
  induction 1 as [|v l Hv Hl [IH1 IH2]]; cbn [map flat_map]; [split; [constructor|reflexivity]|].
  destruct v as [z| | | |]; try contradiction. split.
  - constructor; [now apply scalar_enc_dec|exact IH1].
  - cbn [norm view]. f_equal. exact IH2.
Qed.

Lemma flat_map_in_len {A} (f : A -> list Z) x l : In x l -> zlen (f x) <= zlen (flat_map f l).
Proof.
  induction l as [|y l IH]; cbn [In flat_map]; [tauto|]. rewrite zlen_app. intros [->|H].
  - pose proof (zlen_nonneg (flat_map f l)). lia.
  - specialize (IH H). pose proof (zlen_nonneg (f y)). lia.
Qed.

(** The elements of an unpacked repeated field, one record each. *)
Lemma unpacked_dec fs os d1 rest ovs num max t : is_packed t = false -> edec_ok t -> desc_ok t -> 1 <= num < 2 ^ 29 ->
  nth_error fs (length d1) = Some (num, KRep max, t) ->
  forall l old, Forall (wt t) l -> zlen old + zlen l <= max ->
  zlen (flat_map (fun x => enc_elem num t (enc t x)) (map (view t) l)) < 2 ^ 32 ->
  mdec fs os (SvM (d1 ++ SvR old :: rest) ovs) (flat_map (fun x => enc_elem num t (enc t x)) (map (view t) l))
    (SvM (d1 ++ SvR (old ++ map (norm t) (map (view t) l)) :: rest) ovs).
Proof.
  intros Hp He Hd Hn Hf. induction l as [|x l IH]; intros old Hw Hm Hz; cbn [map flat_map] in *.
  - rewrite app_nil_r. constructor.
  - inversion Hw as [|? ? Hx Hl]; subst. rewrite zlen_cons in Hm. rewrite zlen_app in Hz. pose proof (zlen_nonneg l).
    pose proof (zlen_enc_elem num t (enc t (view t x))).
    pose proof (zlen_nonneg (flat_map (fun x => enc_elem num t (enc t x)) (map (view t) l))).
    pose proof (zlen_nonneg (enc_elem num t (enc t (view t x)))). pose proof (zlen_nonneg (enc t (view t x))).
    eapply mdec_app.
    + apply mdec_one. assert (E : enc_elem num t (enc t (view t x)) = tag num LENDEL ++ varint (zlen (enc t (view t x))) ++ enc t (view t x)).
      { destruct t; [discriminate|reflexivity|reflexivity]. }
      rewrite E. eapply rdec_repeated; eauto.
      * apply nth_error_mid.
      * now apply tag_varint32.
      * apply varint_varint32. lia.
      * apply He; auto. lia.
      * lia.
    + rewrite upd_mid. replace (old ++ norm t (view t x) :: map (norm t) (map (view t) l))
        with ((old ++ [norm t (view t x)]) ++ map (norm t) (map (view t) l)) by (rewrite <- app_assoc; reflexivity).
      apply IH; auto; [|lia]. rewrite zlen_app, zlen_cons, zlen_nil. lia.
Qed.

(** One field. *)
Lemma field_dec fs os d1 rest ovs num k t i pres x :
  edec_ok t -> desc_ok t -> (match k with KRep max => capacity_ok max | _ => True end) -> 1 <= num < 2 ^ 29 ->
  nth_error fs (length d1) = Some (num, k, t) -> wt_field k (wt t) x ->
  zlen (enc_field num k t (enc t) (view_field k (view t) i pres x)) < 2 ^ 32 ->
  mdec fs os (SvM (d1 ++ sdefault_field k (sdefault t) :: rest) ovs)
    (enc_field num k t (enc t) (view_field k (view t) i pres x))
    (SvM (d1 ++ norm_field k t (norm t) (view_field k (view t) i pres x) :: rest) ovs).
Proof.
  intros He Hd Hcap Hn Hf Hw Hz.
  assert (Hone : forall p, p = enc t (view t x) -> zlen (enc_elem num t p) < 2 ^ 32 -> wt t x -> k = KPlain ->
    mdec fs os (SvM (d1 ++ sdefault t :: rest) ovs) (enc_elem num t p) (SvM (d1 ++ norm t (view t x) :: rest) ovs)).
  { intros p -> Hz' Hx ->. pose proof (zlen_enc_elem num t (enc t (view t x))). apply mdec_one. rewrite enc_elem_shape.
    rewrite <- (upd_mid d1 (sdefault t) (norm t (view t x)) rest). eapply rdec_plain; eauto using nth_error_mid.
    - now apply tag_varint32.
    - apply enc_body. lia.
    - apply He; auto. lia. }
  destruct k as [| |max|]; cbn [view_field sdefault_field wt_field] in *.
  - (* plain *)
    destruct t as [sc|st max|fs' os'].
    + destruct x as [z| | | |]; try contradiction. cbn [view enc_field norm_field] in *.
      destruct (is_zero sc z) eqn:E0; [constructor|]. exact (Hone _ eq_refl Hz Hw eq_refl).
    + replace (norm_field KPlain (EBytes st max) (norm (EBytes st max)) (view (EBytes st max) x))
        with (norm (EBytes st max) (view (EBytes st max) x)) by (destruct x; try contradiction; reflexivity).
      pose proof (enc_nil_default (EBytes st max) x Hw) as Hnil. cbn [enc_field] in *.
      destruct (enc (EBytes st max) (view (EBytes st max) x)) as [|b p] eqn:Ee.
      * rewrite Hnil by reflexivity. constructor.
      * now apply Hone.
    + replace (norm_field KPlain (EMsg fs' os') (norm (EMsg fs' os')) (view (EMsg fs' os') x))
        with (norm (EMsg fs' os') (view (EMsg fs' os') x)) by (destruct x; try contradiction; reflexivity).
      pose proof (enc_nil_default (EMsg fs' os') x Hw) as Hnil. unfold enc_field in *.
      destruct (enc (EMsg fs' os') (view (EMsg fs' os') x)) as [|b p] eqn:Ee.
      * rewrite Hnil by reflexivity. constructor.
      * now apply Hone.
  - (* optional *)
    destruct (present pres i); cbn [enc_field norm_field] in *; [|constructor].
    pose proof (zlen_enc_elem num t (enc t (view t x))). apply mdec_one. rewrite enc_elem_shape.
    rewrite <- (upd_mid d1 SvNone (SvSome (norm t (view t x))) rest). eapply rdec_opt_absent; eauto using nth_error_mid.
    + now apply tag_varint32.
    + apply enc_body. lia.
    + apply He; auto. lia.
  - (* repeated *)
    destruct x as [| | |len data|]; try contradiction. destruct Hw as (Hl & Hzd & Hwd). apply all_Forall in Hwd.
    assert (Hwl : Forall (wt t) (firstn (Z.to_nat len) data)) by now apply Forall_firstn.
    assert (Hzl : zlen (firstn (Z.to_nat len) data) = len) by (rewrite zlen_firstn; lia).
    remember (firstn (Z.to_nat len) data) as l eqn:El. clear El Hwd Hzd Hone data.
    assert (Hm : zlen l <= max) by lia. clear Hzl. cbn [norm_field enc_field] in *.
    destruct (is_packed t) eqn:Ep.
    + destruct t as [sc| |]; try discriminate. destruct (packed_enc sc l Hwl) as (Hpk & Emap).
      remember (map (fun v => match v with VS z => z | _ => 0 end) l) as zs eqn:Ezs.
      destruct l as [|x l]; [subst; constructor|]. remember (x :: l) as l' eqn:El'.
      assert (Hne : map (view (EScalar sc)) l' <> []) by (subst l'; discriminate).
      destruct (map (view (EScalar sc)) l') as [|y m] eqn:Em; [congruence|].
      unfold delimited in Hz |- *. rewrite !zlen_app in Hz.
      pose proof (zlen_nonneg (flat_map (enc (EScalar sc)) (y :: m))).
      pose proof (zlen_nonneg (tag num LENDEL)). pose proof (zlen_nonneg (varint (zlen (flat_map (enc (EScalar sc)) (y :: m))))).
      rewrite <- Emap. apply mdec_one. rewrite <- (upd_mid d1 (SvR []) (SvR (map SvZ zs)) rest). change (map SvZ zs) with ([] ++ map SvZ zs).
      eapply rdec_packed; eauto using nth_error_mid.
      * now apply tag_varint32.
      * apply varint_varint32. lia.
      * rewrite zlen_nil. rewrite Ezs, zlen_map. lia.
    + change (map (norm t) (map (view t) l)) with ([] ++ map (norm t) (map (view t) l)).
      assert (E : forall e : sval -> list Z, match t with
        | EScalar _ => match map (view t) l with [] => [] | _ :: _ => tag num LENDEL ++ delimited (flat_map e (map (view t) l)) end
        | _ => flat_map (fun x => enc_elem num t (e x)) (map (view t) l) end
        = flat_map (fun x => enc_elem num t (e x)) (map (view t) l)) by (intros; destruct t; [discriminate|reflexivity|reflexivity]).
      rewrite E in *. eapply unpacked_dec; eauto.
  - constructor.
Qed.

Lemma fields_dec os ovs pres : forall fs2 fs1 d1 i xs,
  desc_ok (EMsg (fs1 ++ fs2) os) -> Forall (fun f : fdesc => edec_ok (snd f)) fs2 -> length d1 = length fs1 ->
  all2 (fun '(_, k, t) => wt_field k (wt t)) fs2 xs ->
  zlen (enc_fields (etab fs2) (view_fields (vtab fs2) i pres xs)) < 2 ^ 32 ->
  mdec (fs1 ++ fs2) os (SvM (d1 ++ sdtab fs2) ovs) (enc_fields (etab fs2) (view_fields (vtab fs2) i pres xs))
    (SvM (d1 ++ norm_fields (ntab fs2) (view_fields (vtab fs2) i pres xs)) ovs).
Proof.
  induction fs2 as [|[[num k] t] fs2 IH]; intros fs1 d1 i xs Hd He Hl Hw Hz; destruct xs as [|x xs]; cbn [all2] in Hw; try contradiction.
  - constructor.
  - destruct Hw as [Hwx Hw]. inversion He as [|? ? Het He2]; subst. cbn [snd] in Het.
    assert (Hf : nth_error (fs1 ++ (num, k, t) :: fs2) (length d1) = Some (num, k, t)) by (rewrite Hl; apply nth_error_mid).
    destruct (desc_field _ _ _ _ _ _ Hd Hf) as (Hdt & Hnum & Hcap).
    cbn [vtab etab ntab sdtab map view_fields enc_fields norm_fields] in *. rewrite zlen_app in Hz.
    match type of Hz with zlen ?a + zlen ?b < _ => pose proof (zlen_nonneg a); pose proof (zlen_nonneg b) end.
    eapply mdec_app; [eapply field_dec; eauto; lia|].
    replace (fs1 ++ (num, k, t) :: fs2) with ((fs1 ++ [(num, k, t)]) ++ fs2) by (rewrite <- app_assoc; reflexivity).
    match goal with |- mdec _ _ (SvM (d1 ++ ?a :: ?b) _) _ (SvM (d1 ++ _ :: ?c) _) =>
      replace (d1 ++ a :: b) with ((d1 ++ [a]) ++ b) by (rewrite <- app_assoc; reflexivity);
      replace (d1 ++ a :: c) with ((d1 ++ [a]) ++ c) by (rewrite <- app_assoc; reflexivity) end.
    apply IH; auto.
    + rewrite <- app_assoc. exact Hd.
    + rewrite !app_length. cbn. lia.
    + unfold etab, vtab. lia.
Qed.

Lemma oneofs_dec fs vs : forall os2 os1 d1 ovs,
  desc_ok (EMsg fs (os1 ++ os2)) -> Forall (Forall (fun m : Z * ety => edec_ok (snd m))) os2 -> length d1 = length os1 ->
  all2 (fun ms => wt_oneof (map (fun '(num, t) => (num, wt t)) ms)) os2 ovs ->
  zlen (enc_oneofs (eotab os2) (view_oneofs (votab os2) ovs)) < 2 ^ 32 ->
  mdec fs (os1 ++ os2) (SvM vs (d1 ++ map (fun _ => (0, SvNone)) os2)) (enc_oneofs (eotab os2) (view_oneofs (votab os2) ovs))
    (SvM vs (d1 ++ norm_oneofs (notab os2) (view_oneofs (votab os2) ovs))).
Proof.
  induction os2 as [|ms os2 IH]; intros os1 d1 ovs Hd He Hl Hw Hz; destruct ovs as [|o ovs]; cbn [all2] in Hw; try contradiction.
  - constructor.
  - destruct Hw as [Hwo Hw]. inversion He as [|? ? Het He2]; subst.
    assert (Hf : nth_error (os1 ++ ms :: os2) (length d1) = Some ms) by (rewrite Hl; apply nth_error_mid).
    cbn [votab eotab notab map view_oneofs enc_oneofs norm_oneofs] in *. rewrite zlen_app in Hz.
    match type of Hz with zlen ?a + zlen ?b < _ => pose proof (zlen_nonneg a); pose proof (zlen_nonneg b) end.
    eapply mdec_app.
    + instantiate (1 := SvM vs (d1 ++ norm_oneof (map (fun '(num, t) => (num, norm t)) ms)
                          (view_oneof (map (fun '(num, t) => (num, view t)) ms) o) :: map (fun _ => (0, SvNone)) os2)).
      assert (Hz1 : zlen (enc_oneof (map (fun '(num, t) => (num, (t, enc t))) ms)
                       (view_oneof (map (fun '(num, t) => (num, view t)) ms) o)) < 2 ^ 32) by lia.
      unfold wt_oneof in Hwo. unfold view_oneof, enc_oneof, norm_oneof in *. rewrite (lookup_map wt) in Hwo. rewrite (lookup_map view) in Hz1 |- *.
      destruct (lookup ms (fst o)) as [t|] eqn:El; cbn [option_map fst snd] in *.
      * rewrite !lookup_map, El in *. cbn [option_map] in *. destruct (desc_member _ _ _ _ _ _ Hd Hf El) as (Hdt & Hnum).
        assert (Hedt : edec_ok t).
        { apply lookup_In in El. eapply Forall_forall in Het; [|exact El]. exact Het. }
        pose proof (zlen_enc_elem (fst o) t (enc t (view t (snd o)))). apply mdec_one. rewrite enc_elem_shape.
        rewrite <- (upd_mid d1 (0, SvNone) (fst o, SvSome (norm t (view t (snd o))))). eapply rdec_oneof_other; eauto using nth_error_mid.
        -- lia.
        -- now apply tag_varint32.
        -- apply enc_body. lia.
        -- apply Hedt; auto. lia.
      * destruct (lookup (map (fun '(num, t0) => (num, (t0, enc t0))) ms) 0) as [[? ?]|];
          destruct (lookup (map (fun '(num, t0) => (num, norm t0)) ms) 0); constructor.
    + replace (os1 ++ ms :: os2) with ((os1 ++ [ms]) ++ os2) by (rewrite <- app_assoc; reflexivity).
      match goal with |- mdec _ _ (SvM _ (d1 ++ ?a :: ?b)) _ (SvM _ (d1 ++ _ :: ?c)) =>
        replace (d1 ++ a :: b) with ((d1 ++ [a]) ++ b) by (rewrite <- app_assoc; reflexivity);
        replace (d1 ++ a :: c) with ((d1 ++ [a]) ++ c) by (rewrite <- app_assoc; reflexivity) end.
      apply IH; auto.
      * rewrite <- app_assoc. exact Hd.
      * rewrite !app_length. cbn. lia.
      * unfold eotab, votab. lia.
Qed.

Theorem enc_decodes t : edec_ok t.
Proof.
  induction t as [sc|st max|fs os Hf Ho] using ety_ind'; intros v Hw Hd Hz.
  - destruct v as [z| | | |]; try contradiction. cbn. constructor. now apply scalar_enc_dec.
  - destruct v as [| |len data| |]; try contradiction. cbn in *. destruct Hw as (Hl & Hzd & Hb). apply all_Forall in Hb. constructor.
    + rewrite zlen_firstn. lia.
    + now apply Forall_firstn.
  - destruct v as [| | | |pres xs ovs]; try contradiction. rewrite view_tab in *. rewrite enc_tab in *. rewrite norm_tab, sdefault_tab.
    cbn [wt] in Hw. destruct Hw as (_ & _ & Hw1 & Hw2). rewrite zlen_app in Hz.
    match type of Hz with zlen ?a + zlen ?b < _ => pose proof (zlen_nonneg a); pose proof (zlen_nonneg b) end.
    constructor. eapply mdec_app.
    + apply (fields_dec os _ pres fs [] [] 0 xs); auto. lia.
    + apply (oneofs_dec fs _ os [] [] ovs); auto. lia.
Qed.
End Unknown.
