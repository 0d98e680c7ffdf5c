(** Decoding follows the record semantics of Spec.v. *)
From Verif Require Import Base Buffers Wire Schema Fields Message Spec Contracts BitLemmas
  ReadProofs ScalarProofs BufferProofs Struct SerProofs Tables.
From Coq Require Import ZifyBool ZifyNat ZifyN.
Ltac Zify.zify_post_hook ::= Z.div_mod_to_equations.

Scheme edec_mind := Induction for edecu Sort Prop
  with mdec_mind := Induction for mdecu Sort Prop
  with rdec_mind := Induction for rdecu Sort Prop.
Combined Scheme dec_ind from edec_mind, mdec_mind, rdec_mind.

(** Decoding without records of unknown fields is decoding. *)
Lemma dec_allow u :
  (forall t old p new, edecu u t old p new -> edec t old p new)
  /\ (forall fs os old bs new, mdecu u fs os old bs new -> mdec fs os old bs new)
  /\ (forall fs os old r new, rdecu u fs os old r new -> rdec fs os old r new).
Proof. apply dec_ind; intros; solve [econstructor; eauto]. Qed.

(** What decoding into an element needs to know about its old state. *)
Definition ready (t : ety) (v : value) (old : sval) : Prop :=
  match t with
  | EMsg _ _ => wt t v /\ clean t v /\ view t v = old
  | _ => True
  end.

Definition good (t : ety) (v : value) (new : sval) : Prop := wt t v /\ clean t v /\ view t v = new.

Lemma good_ready t v o : good t v o -> ready t v o.
Proof. destruct t; cbn [ready]; auto. Qed.

Section R.
Context {S : Type} {R : rops S} {rel : S -> list Z -> Prop} (ok : reader_ok R rel).

Lemma scalar_deserialize_z_nil sc s : rel s [] ->
  exists s', scalar_deserialize_z sc R s = Done (EndOfBuffer, None, s') /\ rel s' [].
Proof.
  intros Hr.
  assert (HV : forall w, width w -> exists s', DeserializeVarint R w s = Done (EndOfBuffer, None, s') /\ rel s' []).
  { intros w Hw. apply (DeserializeVarint_end ok w [] s); auto. destruct (vbytes_n w Hw); cbn; lia. }
  assert (HF : forall w, 0 < w -> w mod 8 = 0 -> exists s', DeserializeFixed R w s = Done (EndOfBuffer, None, s') /\ rel s' []).
  { intros w Hw Hm. apply (DeserializeFixed_short ok w [] s); auto. }
  destruct sc; cbn [scalar_deserialize_z];
    unfold DeserializeInt, DeserializeSInt, DeserializeUInt, DeserializeFloat, DeserializeDouble, DeserializeSFixed.
  1, 2, 5, 6: match goal with |- context [DeserializeVarint _ ?w _] => destruct (HV w) as (s' & -> & Hs') end;
    [first [left; reflexivity | right; reflexivity]|cbn [bind]; eauto].
  1, 2, 4: apply HV; first [left; reflexivity | right; reflexivity].
  1: { unfold DeserializeBool. destruct (ro_pop_nil _ _ ok _ Hr) as (s' & -> & Hs'). cbn [bind]. eauto. }
  1, 2, 5, 6: apply HF; [lia|reflexivity].
  - destruct (HF 32) as (s' & -> & Hs'); [lia|reflexivity|]. cbn [bind]. eauto.
  - destruct (HF 64) as (s' & -> & Hs'); [lia|reflexivity|]. cbn [bind]. eauto.
Qed.

Lemma DeserializeVarint_some w s s' : DeserializeVarint R w s = Done (NoErrors, None, s') -> False.
Proof using Type.
  unfold DeserializeVarint. destruct (DeserializeVarint_loop _ _ _ _ _ _ _) as [[[[r b] t] s1]| |]; cbn [bind]; try discriminate.
  destruct r; [destruct (negb _)|]; discriminate.
Qed.

(** Strings: the payload is copied into a zero-filled array. *)
Lemma bytes_loop_full : forall p rest len data s, rel s (p ++ rest) ->
  0 <= len -> len + zlen p <= zlen data -> Forall is_byte data ->
  exists data' s', bytes_deserialize_loop R (length p) len data s = Done (len + zlen p, data', s')
    /\ rel s' rest /\ zlen data' = zlen data /\ Forall is_byte data'
    /\ firstn (Z.to_nat (len + zlen p)) data' = firstn (Z.to_nat len) data ++ p.
Proof.
  induction p as [|b p IH]; intros rest len data s Hr Hl Hle Hb; cbn [length bytes_deserialize_loop].
  - exists data, s. rewrite zlen_nil, Z.add_0_r, app_nil_r. auto.
  - rewrite zlen_cons in Hle. pose proof (zlen_nonneg p).
    pose proof (ro_bytes _ _ ok _ _ Hr) as Hbs. cbn [app] in *. inversion Hbs; subst.
    destruct (ro_pop_cons _ _ ok _ _ _ Hr) as (s' & -> & Hs'). cbn [bind].
    rewrite aset_ok by lia. cbn [bind].
    destruct (IH rest (len + 1) (upd (Z.to_nat len) b data) s') as (data' & s2 & E & Hr2 & Hz & Hb' & Hf); auto; try lia.
    + rewrite zlen_upd. lia.
    + apply Forall_upd; auto.
    + exists data', s2. rewrite zlen_cons. rewrite E. replace (len + 1 + zlen p) with (len + (1 + zlen p)) in * by lia.
      split; [reflexivity|]. split; [auto|]. rewrite zlen_upd in Hz. split; [auto|]. split; [auto|].
      rewrite Hf. replace (Z.to_nat (len + 1)) with (Datatypes.S (Z.to_nat len)) by lia.
      rewrite firstn_S_upd by (unfold zlen in *; lia). now rewrite <- app_assoc.
Qed.

Lemma zrepeat_bytes n : Forall is_byte (zrepeat 0 n).
Proof. apply all_Forall. apply all_repeat. unfold is_byte. lia. Qed.

Lemma bytes_deserialize_full st max p l rest v s : capacity_ok max -> zlen p <= max -> varint32 l (zlen p) ->
  rel s (l ++ p ++ rest) ->
  exists v' s', bytes_deserialize max S R v s = Done (NoErrors, v', s') /\ rel s' rest
    /\ good (EBytes st max) v' (SvB p).
Proof.
  intros Hc Hm (Hl & Hv) Hr. unfold bytes_deserialize, capacity_ok in *.
  destruct (DeserializeVarint_wf ok 32 l (p ++ rest) s) as (s1 & -> & Hr1); auto; [left; reflexivity|].
  cbn [bind]. rewrite Hv. destruct (Z.leb_spec (zlen p) max); [|lia].
  replace (Z.to_nat (zlen p)) with (length p) by (unfold zlen; lia).
  destruct (bytes_loop_full p rest 0 (zrepeat 0 max) s1) as (data' & s2 & -> & Hr2 & Hz & Hb & Hf); auto; try lia.
  { rewrite zlen_zrepeat by lia. lia. } { apply zrepeat_bytes. }
  rewrite zlen_zrepeat in Hz by lia. cbn [bind]. rewrite Z.add_0_l in *. rewrite Z.eqb_refl. exists (VB (zlen p) data'), s2.
  split; [reflexivity|]. split; [auto|]. unfold good; cbn [wt clean view]. pose proof (zlen_nonneg p).
  split; [|split; [auto|]].
  - split; [lia|]. split; [lia|]. now apply all_Forall.
  - rewrite Hf. reflexivity.
Qed.

(** Packed repeated fields. *)
Lemma packed_loop sc max : forall p zs, packed_dec sc p zs -> forall fuel x len data s,
  rel s p -> (length p < fuel)%nat -> 0 <= len -> zlen data = max -> all (wt (EScalar sc)) data ->
  len + zlen zs <= max ->
  exists data' s', rep_packed_loop sc fuel x len data R s = Done (EndOfBuffer, len + zlen zs, data', s')
    /\ rel s' [] /\ zlen data' = max /\ all (wt (EScalar sc)) data'
    /\ firstn (Z.to_nat (len + zlen zs)) data' = firstn (Z.to_nat len) data ++ map VS zs.
Proof.
  induction 1 as [|bs z rest zs Hz Hp IH]; intros fuel x len data s Hr Hfu Hl Hd Hw Hm.
  - destruct fuel as [|fuel]; [lia|]. cbn [rep_packed_loop]. unfold scalar_deserialize.
    destruct (scalar_deserialize_z_nil sc s Hr) as (s1 & -> & Hr1). cbn [bind is_ok].
    exists data, s1. rewrite zlen_nil, Z.add_0_r. cbn [map]. rewrite app_nil_r. auto.
  - destruct fuel as [|fuel]; [lia|]. cbn [rep_packed_loop]. unfold scalar_deserialize.
    destruct (scalar_deserialize_z_dec ok sc bs z rest s Hz Hr) as (s1 & -> & Hr1). cbn [bind is_ok].
    rewrite zlen_cons in *. pose proof (zlen_nonneg zs). unfold rep_add_scalar.
    destruct (Z.ltb_spec len (zlen data)); [|lia]. rewrite aset_ok by lia. cbn [bind is_ok].
    destruct (scalar_dec_bytes sc bs z Hz) as (_ & Hne).
    destruct (IH fuel (VS z) (len + 1) (upd (Z.to_nat len) (VS z) data) s1) as (data' & s2 & E & Hr2 & Hz' & Hw' & Hf); auto.
    + rewrite app_length in Hfu. destruct bs; [congruence|]. cbn in Hfu. lia.
    + lia.
    + now rewrite zlen_upd.
    + apply all_Forall. apply Forall_upd; [now apply all_Forall|]. cbn [wt]. eapply scalar_dec_range; eauto.
    + lia.
    + exists data', s2. rewrite E. replace (len + 1 + zlen zs) with (len + (1 + zlen zs)) in * by lia.
      split; [reflexivity|]. split; [auto|]. split; [auto|]. split; [auto|]. rewrite Hf. cbn [map].
      replace (Z.to_nat (len + 1)) with (Datatypes.S (Z.to_nat len)) by lia.
      rewrite firstn_S_upd by (unfold zlen in *; lia). now rewrite <- app_assoc.
Qed.

End R.

Lemma map_view_VS sc zs : map (view (EScalar sc)) (map VS zs) = map SvZ zs.
Proof. rewrite map_map. reflexivity. Qed.

(** The three induction predicates. *)
Definition elem_dec_ok (t : ety) (old : sval) (p : list Z) (new : sval) : Prop :=
  forall v S (R : rops S) rel (ok : reader_ok R rel) bs tail s fuel,
  desc_ok t -> ready t v old -> body t p bs -> rel s (bs ++ tail) -> (length bs < fuel)%nat ->
  exists v' s', elem_deserialize_check_type t (deserialize fuel t) (elem_wiretype t) S R v s = Done (NoErrors, v', s')
    /\ rel s' tail /\ good t v' new.

Definition msg_dec_ok (fs : list fdesc) (os : list odesc) (old : sval) (bs : list Z) (new : sval) : Prop :=
  forall v S (R : rops S) rel (ok : reader_ok R rel) s fuel0 fuel,
  desc_ok (EMsg fs os) -> good (EMsg fs os) v old -> rel s bs -> (length bs < fuel)%nat -> (length bs < fuel0)%nat ->
  exists v' s', msg_loop fuel0 fuel (dtab fuel0 fs) (dotab fuel0 os) R v s = Done (NoErrors, v', s')
    /\ rel s' [] /\ good (EMsg fs os) v' new.

Definition rec_dec_ok (fs : list fdesc) (os : list odesc) (old : sval) (r : list Z) (new : sval) : Prop :=
  r <> [] /\
  forall v S (R : rops S) rel (ok : reader_ok R rel) tail s fuel0,
  desc_ok (EMsg fs os) -> good (EMsg fs os) v old -> rel s (r ++ tail) -> (length r < fuel0)%nat ->
  exists w id s1 v' s2, DeserializeTag R s = Done (NoErrors, Some (w, id), s1)
    /\ msg_dispatch fuel0 (dtab fuel0 fs) (dotab fuel0 os) id w R v s1 = Done (NoErrors, v', s2)
    /\ rel s2 tail /\ good (EMsg fs os) v' new.

(** Destructuring a good message. *)
Lemma good_VM fs os v vs ovs : good (EMsg fs os) v (SvM vs ovs) ->
  exists pres xs os', v = VM pres xs os' /\ zlen pres = presence_size (n_optional fs) /\ Forall is_u32 pres
  /\ all2 (fun '(_, k, t) => wt_field k (wt t)) fs xs
  /\ all2 (fun ms => wt_oneof (map (fun '(num, t) => (num, wt t)) ms)) os os'
  /\ clean_fields (ctab fs) 0 pres xs
  /\ all2 (fun ms => clean_oneof (map (fun '(num, t) => (num, clean t)) ms)) os os'
  /\ vs = view_fields (vtab fs) 0 pres xs /\ ovs = view_oneofs (votab os) os'.
Proof.
  intros (Hw & Hc & Hv). destruct v as [| | | |pres xs os']; try contradiction.
  exists pres, xs, os'. rewrite view_tab in Hv. injection Hv as <- <-. rewrite clean_tab in Hc. cbn [wt] in Hw.
  destruct Hw as (H1 & H2 & H3 & H4). destruct Hc. apply all_Forall in H2. repeat split; auto.
Qed.

Lemma good_intro fs os pres xs os' vs ovs : zlen pres = presence_size (n_optional fs) -> Forall is_u32 pres ->
  all2 (fun '(_, k, t) => wt_field k (wt t)) fs xs ->
  all2 (fun ms => wt_oneof (map (fun '(num, t) => (num, wt t)) ms)) os os' ->
  clean_fields (ctab fs) 0 pres xs ->
  all2 (fun ms => clean_oneof (map (fun '(num, t) => (num, clean t)) ms)) os os' ->
  view_fields (vtab fs) 0 pres xs = vs -> view_oneofs (votab os) os' = ovs ->
  good (EMsg fs os) (VM pres xs os') (SvM vs ovs).
Proof.
  intros Hz Hu Hw Ho Hc Hco Hv Hvo. split; [|split].
  - cbn [wt]. split; [auto|]. split; [now apply all_Forall|auto].
  - rewrite clean_tab. auto.
  - rewrite view_tab. congruence.
Qed.

(** Replacing one field. *)
Lemma good_field fs os pres xs os' vs ovs i num k t x pres' x' nv :
  good (EMsg fs os) (VM pres xs os') (SvM vs ovs) ->
  nth_error fs i = Some (num, k, t) -> nth_error xs i = Some x ->
  zlen pres' = presence_size (n_optional fs) -> Forall is_u32 pres' -> agree_but fs 0 i pres pres' ->
  wt_field k (wt t) x' -> clean_field k t (clean t) (optix fs i) pres' x' ->
  view_field k (view t) (optix fs i) pres' x' = nv ->
  good (EMsg fs os) (VM pres' (upd i x' xs) os') (SvM (upd i nv vs) ovs).
Proof.
  intros Hg Hf Hx Hz Hu Ha Hw Hc Hv.
  destruct (good_VM _ _ _ _ _ Hg) as (? & ? & ? & [= <- <- <-] & _ & _ & H1 & H2 & H3 & H4 & -> & ->).
  apply good_intro; auto.
  - eapply all2_upd; eauto.
  - eapply clean_fields_upd; eauto.
  - rewrite (view_fields_upd fs i 0 pres pres' xs num k t x' Hf Ha). rewrite Z.add_0_l. now rewrite Hv.
Qed.

Lemma good_oneof fs os pres xs os' vs ovs j ms o nv :
  good (EMsg fs os) (VM pres xs os') (SvM vs ovs) ->
  nth_error os j = Some ms ->
  wt_oneof (map (fun '(num, t) => (num, wt t)) ms) o ->
  clean_oneof (map (fun '(num, t) => (num, clean t)) ms) o ->
  view_oneof (map (fun '(num, t) => (num, view t)) ms) o = nv ->
  good (EMsg fs os) (VM pres xs (upd j o os')) (SvM vs (upd j nv ovs)).
Proof.
  intros Hg Hms Hw Hc Hv.
  destruct (good_VM _ _ _ _ _ Hg) as (? & ? & ? & [= <- <- <-] & H5 & H6 & H1 & H2 & H3 & H4 & -> & ->).
  apply good_intro; auto.
  - eapply all2_upd; eauto.
  - eapply all2_upd; eauto.
  - rewrite (view_oneofs_upd os _ j ms o Hms). now rewrite Hv.
Qed.

Lemma NoDup_app_inv {A} (l l' : list A) : NoDup (l ++ l') -> NoDup l /\ NoDup l' /\ (forall x, In x l -> ~ In x l').
Proof.
  induction l as [|a l IH]; cbn; intros H.
  - split; [constructor|]. split; [auto|intros x []].
  - inversion H as [|? ? Hn Hd]; subst. destruct (IH Hd) as (H1 & H2 & H3). split.
    + constructor; auto. intros Hin. apply Hn. apply in_or_app. auto.
    + split; [auto|]. intros x [->|Hx]; [intros Hin; apply Hn; apply in_or_app; auto|auto].
Qed.

Lemma desc_field fs os i num k t : desc_ok (EMsg fs os) -> nth_error fs i = Some (num, k, t) ->
  desc_ok t /\ 1 <= num < 2 ^ 29 /\ match k with KRep max => capacity_ok max | _ => True end.
Proof.
  intros (_ & Hr & Hf & _) Hn. apply all_Forall in Hr, Hf. pose proof (nth_error_In _ _ Hn) as Hin.
  eapply Forall_forall in Hf; [|exact Hin]. cbn in Hf. split; [tauto|]. split; [|tauto].
  eapply Forall_forall in Hr; [exact Hr|]. unfold field_numbers. apply in_or_app. left.
  apply (in_map (fun '(n, _, _) => n)) in Hin. exact Hin.
Qed.

Lemma desc_member fs os j ms num t : desc_ok (EMsg fs os) -> nth_error os j = Some ms -> lookup ms num = Some t ->
  desc_ok t /\ 1 <= num < 2 ^ 29.
Proof.
  intros (_ & Hr & _ & Ho) Hn Hl. apply all_Forall in Hr, Ho. pose proof (nth_error_In _ _ Hn) as Hin. apply lookup_In in Hl.
  eapply Forall_forall in Ho; [|exact Hin]. apply all_Forall in Ho. split.
  - eapply Forall_forall in Ho; [|exact Hl]. exact Ho.
  - eapply Forall_forall in Hr; [exact Hr|]. unfold field_numbers. apply in_or_app. right.
    apply in_flat_map. exists ms. split; [exact Hin|]. apply (in_map fst) in Hl. exact Hl.
Qed.

Lemma desc_find_field fuel fs os i num k t : desc_ok (EMsg fs os) -> nth_error fs i = Some (num, k, t) ->
  find_field (dtab fuel fs) 0 0 num = Some (i, optix fs i, (num, k, t, deserialize fuel t)).
Proof.
  intros (Hd & _) Hn. apply NoDup_app_inv in Hd. destruct Hd as (Hd & _ & _).
  exact (find_field_gen fuel fs 0 0 i num k t Hd Hn).
Qed.

Lemma desc_find_oneof fuel fs os j ms num t : desc_ok (EMsg fs os) -> nth_error os j = Some ms -> lookup ms num = Some t ->
  find_field (dtab fuel fs) 0 0 num = None
  /\ find_oneof (dotab fuel os) 0 num = Some (j, map (fun '(n, t) => (n, t, deserialize fuel t)) ms).
Proof.
  intros (Hd & _) Hn Hl. apply NoDup_app_inv in Hd. destruct Hd as (_ & Hd & Hx). split.
  - apply find_field_none. intros Hin. apply (Hx _ Hin). apply in_flat_map. exists ms.
    split; [eapply nth_error_In; eauto|]. apply lookup_In in Hl. apply (in_map fst) in Hl. exact Hl.
  - exact (find_oneof_gen fuel os 0 j ms num t Hd Hn Hl).
Qed.

Lemma varint32_nonempty l n : varint32 l n -> l <> [].
Proof. intros (H & _). eapply varint_wf_nonempty; eauto. Qed.

Lemma agree_set fs i num t pres pres' : nth_error fs i = Some (num, KOpt, t) ->
  (forall j, 0 <= j -> present pres' j = if j =? optix fs i then true else present pres j) ->
  agree_but fs 0 i pres pres'.
Proof.
  intros Hf Hp q n' t' Hq Hne. rewrite Z.add_0_l, Hp by apply optix_nonneg.
  destruct (Z.eqb_spec (optix fs q) (optix fs i)) as [E|]; [|reflexivity].
  exfalso. apply Hne. eapply optix_inj; eauto.
Qed.

(** One record of a plain or optional field, given the element's result. *)
Lemma dispatch_elem fs os pres xs os' vs ovs i num k t x old new p bs tg tail :
  (k = KPlain \/ k = KOpt) ->
  good (EMsg fs os) (VM pres xs os') (SvM vs ovs) -> desc_ok (EMsg fs os) ->
  nth_error fs i = Some (num, k, t) -> nth_error xs i = Some x ->
  ready t x old -> varint32 tg (num * 8 + wt_code (elem_wiretype t)) -> body t p bs ->
  elem_dec_ok t old p new ->
  forall S (R : rops S) rel (ok : reader_ok R rel) s fuel0,
  rel s ((tg ++ bs) ++ tail) -> (length (tg ++ bs) < fuel0)%nat ->
  exists w id s1 v' s2, DeserializeTag R s = Done (NoErrors, Some (w, id), s1)
    /\ msg_dispatch fuel0 (dtab fuel0 fs) (dotab fuel0 os) id w R (VM pres xs os') s1 = Done (NoErrors, v', s2)
    /\ rel s2 tail
    /\ good (EMsg fs os) v' (SvM (upd i (match k with KOpt => SvSome new | _ => new end) vs) ovs).
Proof.
  intros Hk Hg Hd Hf Hx Hre Htg Hb He S R rel ok s fuel0 Hr Hfu.
  destruct (desc_field _ _ _ _ _ _ Hd Hf) as (Hdt & Hnum & _).
  rewrite <- app_assoc in Hr.
  destruct (DeserializeTag_wf ok tg (bs ++ tail) s num (elem_wiretype t)) as (s1 & Et & Hr1); auto; [lia|].
  rewrite app_length in Hfu.
  destruct (He x S R rel ok bs tail s1 fuel0) as (x' & s2 & Ee & Hr2 & Hx'); auto; [lia|].
  exists (elem_wiretype t), num, s1.
  assert (Hlen : (i < length xs)%nat) by (eapply nth_error_lt; eauto).
  destruct (good_VM _ _ _ _ _ Hg) as (? & ? & ? & [= <- <- <-] & Hpz & Hpu & _).
  assert (D : exists pres', (match k with KOpt => presence_set pres (optix fs i) | _ => Done pres end) = Done pres'
    /\ zlen pres' = presence_size (n_optional fs) /\ Forall is_u32 pres' /\ agree_but fs 0 i pres pres'
    /\ (k = KOpt -> present pres' (optix fs i) = true)).
  { destruct Hk as [-> | ->].
    - exists pres. repeat split; auto using agree_but_refl. discriminate.
    - destruct (presence_set_ok pres (optix fs i) (n_optional fs)) as (pres' & E & H1 & H2 & H3); auto.
      { eapply optix_bound; eauto. }
      exists pres'. repeat split; auto.
      + eapply agree_set; eauto.
      + intros _. rewrite H3 by apply optix_nonneg. now rewrite Z.eqb_refl. }
  destruct D as (pres' & Ep & Hpz' & Hpu' & Ha & Hpt).
  exists (VM pres' (upd i x' xs) os'), s2. split; [exact Et|]. split; [|split; [exact Hr2|]].
  - unfold msg_dispatch. rewrite (desc_find_field fuel0 _ _ _ _ _ _ Hd Hf). rewrite (aget_nat _ _ _ Hx). cbn [bind].
    unfold field_deserialize. destruct Hk as [-> | ->].
    + injection Ep as <-. rewrite Ee. cbn [bind]. rewrite aset_nat by assumption. reflexivity.
    + rewrite Ep. cbn [bind]. rewrite Ee. cbn [bind]. rewrite aset_nat by assumption. reflexivity.
  - destruct Hx' as (Hw & Hc & Hv). eapply good_field; eauto.
    + destruct Hk as [-> | ->]; exact Hw.
    + destruct Hk as [-> | ->]; cbn [clean_field]; [exact Hc|]. split; [exact Hc|]. rewrite Hpt by reflexivity. discriminate.
    + destruct Hk as [-> | ->]; cbn [view_field]; [exact Hv|]. rewrite Hpt by reflexivity. now rewrite Hv.
Qed.

Lemma placement_ready t : desc_ok t -> ready t (placement_new t) (sdefault t).
Proof. intros Hd. destruct t; cbn [ready]; auto. exact (default_ok _ Hd). Qed.

(** One record of a oneof member. *)
Lemma dispatch_oneof fs os pres xs os' vs ovs j ms num t o old new p bs tg tail :
  good (EMsg fs os) (VM pres xs os') (SvM vs ovs) -> desc_ok (EMsg fs os) ->
  nth_error os j = Some ms -> lookup ms num = Some t -> nth_error os' j = Some o ->
  ready t (if num =? fst o then snd o else placement_new t) old ->
  varint32 tg (num * 8 + wt_code (elem_wiretype t)) -> body t p bs ->
  elem_dec_ok t old p new ->
  forall S (R : rops S) rel (ok : reader_ok R rel) s fuel0,
  rel s ((tg ++ bs) ++ tail) -> (length (tg ++ bs) < fuel0)%nat ->
  exists w id s1 v' s2, DeserializeTag R s = Done (NoErrors, Some (w, id), s1)
    /\ msg_dispatch fuel0 (dtab fuel0 fs) (dotab fuel0 os) id w R (VM pres xs os') s1 = Done (NoErrors, v', s2)
    /\ rel s2 tail
    /\ good (EMsg fs os) v' (SvM vs (upd j (num, SvSome new) ovs)).
Proof.
  intros Hg Hd Hms Hlk Ho Hre Htg Hb He S R rel ok s fuel0 Hr Hfu.
  destruct (desc_member _ _ _ _ _ _ Hd Hms Hlk) as (Hdt & Hnum).
  rewrite <- app_assoc in Hr.
  destruct (DeserializeTag_wf ok tg (bs ++ tail) s num (elem_wiretype t)) as (s1 & Et & Hr1); auto; [lia|].
  rewrite app_length in Hfu.
  destruct (He (if num =? fst o then snd o else placement_new t) S R rel ok bs tail s1 fuel0) as (x' & s2 & Ee & Hr2 & Hx'); auto; [lia|].
  exists (elem_wiretype t), num, s1, (VM pres xs (upd j (num, x') os')), s2. split; [exact Et|].
  assert (Hlen : (j < length os')%nat) by (eapply nth_error_lt; eauto).
  split; [|split; [exact Hr2|]].
  - unfold msg_dispatch. destruct (desc_find_oneof fuel0 _ _ _ _ _ _ Hd Hms Hlk) as (-> & ->).
    rewrite (aget_nat _ _ _ Ho). cbn [bind]. unfold oneof_deserialize.
    set (dms := map (fun '(n, t) => (n, t, deserialize fuel0 t)) ms).
    assert (Hm : find_member dms num = Some (t, deserialize fuel0 t)).
    { unfold dms. rewrite find_member_map, Hlk. reflexivity. }
    assert (H1 : (if num =? fst o then o else oneof_init dms num o) = (num, if num =? fst o then snd o else placement_new t)).
    { destruct (Z.eqb_spec num (fst o)) as [->|]; [destruct o; reflexivity|].
      unfold oneof_init. rewrite Hm. destruct t as [[]| |]; reflexivity. }
    rewrite H1. cbn [fst snd]. rewrite Hm. rewrite Ee. cbn [bind is_ok]. rewrite aset_nat by assumption. reflexivity.
  - destruct Hx' as (Hw & Hc & Hv). eapply good_oneof; eauto.
    + unfold wt_oneof. cbn [fst]. rewrite lookup_map, Hlk. exact Hw.
    + unfold clean_oneof. cbn [fst]. rewrite lookup_map, Hlk. exact Hc.
    + unfold view_oneof. cbn [fst snd]. rewrite lookup_map, Hlk. cbn [option_map]. now rewrite Hv.
Qed.

Lemma nth_error_len_view fs pres xs i num k t o :
  all2 (fun '(_, k, t) => wt_field k (wt t)) fs xs ->
  nth_error fs i = Some (num, k, t) -> nth_error (view_fields (vtab fs) 0 pres xs) i = Some o ->
  exists x, nth_error xs i = Some x /\ o = view_field k (view t) (optix fs i) pres x /\ wt_field k (wt t) x.
Proof.
  intros H Hf Ho. destruct (view_fields_nth _ _ _ _ _ _ _ _ _ Hf Ho) as (x & Hx & Ev). rewrite Z.add_0_l in Ev.
  destruct (all2_nth _ _ _ _ _ H Hf) as (y & Hy & Hw). rewrite Hx in Hy. injection Hy as <-. eauto.
Qed.

Lemma skipn_S_upd {A} n (x : A) l : skipn (S n) (upd n x l) = skipn (S n) l.
Proof. apply skipn_upd_lt. lia. Qed.

Theorem decode_ok :
  (forall t old p new, edec t old p new -> elem_dec_ok t old p new)
  /\ (forall fs os old bs new, mdec fs os old bs new -> msg_dec_ok fs os old bs new)
  /\ (forall fs os old r new, rdec fs os old r new -> rec_dec_ok fs os old r new).
Proof.
  apply dec_ind.
  - (* scalar *)
    intros sc old p z Hz v S R rel ok bs tail s fuel _ _ Hb Hr _. cbn [body] in Hb. subst bs.
    unfold elem_deserialize_check_type, elem_wiretype, wt_eqb. rewrite Z.eqb_refl. cbn [deserialize]. unfold scalar_deserialize.
    destruct (scalar_deserialize_z_dec ok sc p z tail s Hz Hr) as (s1 & -> & Hr1). cbn [bind].
    exists (VS z), s1. split; [reflexivity|]. split; [exact Hr1|]. unfold good; cbn. split; [|auto].
    eapply scalar_dec_range; eauto.
  - (* bytes *)
    intros st max old p Hm Hp v S R rel ok bs tail s fuel Hd _ (l & Hl & ->) Hr _.
    unfold elem_deserialize_check_type, elem_wiretype, wt_eqb. rewrite Z.eqb_refl. cbn [deserialize].
    rewrite <- app_assoc in Hr. eapply bytes_deserialize_full; eauto.
  - (* message *)
    intros fs os old p new _ IH v S R rel ok bs tail s fuel Hd Hre (l & (Hl & Hlv) & ->) Hr Hfu.
    unfold elem_deserialize_check_type, elem_wiretype, wt_eqb. rewrite Z.eqb_refl. unfold deserialize_section.
    rewrite <- app_assoc in Hr.
    destruct (DeserializeVarint_wf ok 32 l (p ++ tail) s) as (s1 & -> & Hr1); auto; [left; reflexivity|].
    cbn [bind]. rewrite Hlv. rewrite app_length in Hfu.
    destruct (IH v _ (sec_ops R) (sec_rel rel tail) (sec_ok R rel tail ok) (mk_section R s1 (zlen p)) fuel fuel)
      as (v' & s' & E & Hs' & Hg); auto; try lia.
    { now apply mk_section_rel. }
    cbn [deserialize]. unfold msg_deserialize.
    change (map (fun '(num, k, t) => (num, k, t, deserialize fuel t)) fs) with (dtab fuel fs).
    change (map (map (fun '(num, t) => (num, t, deserialize fuel t))) os) with (dotab fuel os).
    rewrite E. cbn [bind]. exists v', (sec_parent s'). split; [reflexivity|]. split; [apply Hs'|exact Hg].
  - (* no more records *)
    intros fs os vs ovs v S R rel ok s fuel0 fuel Hd Hg Hr Hfu Hfu0.
    destruct fuel as [|fuel]; [cbn in Hfu; lia|]. cbn [msg_loop].
    destruct (DeserializeTag_nil ok s Hr) as (s1 & -> & Hr1). cbn [bind]. eauto.
  - (* one record and the rest *)
    intros fs os v0 r v1 bs v2 _ (Hne & IH1) _ IH2 v S R rel ok s fuel0 fuel Hd Hg Hr Hfu Hfu0.
    rewrite app_length in *. destruct fuel as [|fuel]; [lia|]. cbn [msg_loop].
    destruct (IH1 v S R rel ok bs s fuel0) as (w & id & s1 & v' & s2 & -> & E & Hr2 & Hg2); auto; [lia|].
    cbn [bind]. rewrite E. cbn [bind is_ok].
    apply (IH2 v' S R rel ok s2 fuel0 fuel); auto; try lia.
    destruct r; [congruence|]. cbn in *; lia.
  - (* plain *)
    intros fs os vs ovs i num t tg p bs old new Hf Ho Htg Hb _ IH. split.
    { apply varint32_nonempty in Htg. destruct tg; [congruence|discriminate]. }
    intros v S R rel ok tail s fuel0 Hd Hg Hr Hfu.
    destruct (good_VM _ _ _ _ _ Hg) as (pres & xs & os' & -> & _ & _ & Hw & _ & Hc & _ & Ev & _). rewrite Ev in Ho.
    destruct (nth_error_len_view _ _ _ _ _ _ _ _ Hw Hf Ho) as (x & Hx & -> & Hwx).
    pose proof (clean_fields_nth _ _ _ _ _ _ _ _ _ Hf Hx Hc) as Hcx.
    eapply (dispatch_elem fs os pres xs os' vs ovs i num KPlain t x); eauto.
    destruct t; cbn [ready]; auto.
  - (* optional, absent *)
    intros fs os vs ovs i num t tg p bs new Hf Ho Htg Hb _ IH. split.
    { apply varint32_nonempty in Htg. destruct tg; [congruence|discriminate]. }
    intros v S R rel ok tail s fuel0 Hd Hg Hr Hfu.
    destruct (good_VM _ _ _ _ _ Hg) as (pres & xs & os' & -> & _ & _ & Hw & _ & Hc & _ & Ev & _). rewrite Ev in Ho.
    destruct (nth_error_len_view _ _ _ _ _ _ _ _ Hw Hf Ho) as (x & Hx & En & Hwx).
    pose proof (clean_fields_nth _ _ _ _ _ _ _ _ _ Hf Hx Hc) as Hcx. rewrite Z.add_0_l in Hcx.
    cbn [view_field clean_field] in En, Hcx. destruct (present pres (optix fs i)); [discriminate|].
    eapply (dispatch_elem fs os pres xs os' vs ovs i num KOpt t x); eauto.
    destruct t; cbn [ready]; auto. destruct Hcx as [Hcx Hdx]. auto.
  - (* optional, present *)
    intros fs os vs ovs i num t tg p bs old new Hf Ho Htg Hb _ IH. split.
    { apply varint32_nonempty in Htg. destruct tg; [congruence|discriminate]. }
    intros v S R rel ok tail s fuel0 Hd Hg Hr Hfu.
    destruct (good_VM _ _ _ _ _ Hg) as (pres & xs & os' & -> & _ & _ & Hw & _ & Hc & _ & Ev & _). rewrite Ev in Ho.
    destruct (nth_error_len_view _ _ _ _ _ _ _ _ Hw Hf Ho) as (x & Hx & En & Hwx).
    pose proof (clean_fields_nth _ _ _ _ _ _ _ _ _ Hf Hx Hc) as Hcx. rewrite Z.add_0_l in Hcx.
    cbn [view_field clean_field] in En, Hcx. destruct (present pres (optix fs i)); [|discriminate].
    injection En as ->.
    eapply (dispatch_elem fs os pres xs os' vs ovs i num KOpt t x); eauto.
    destruct t; cbn [ready]; auto. destruct Hcx as [Hcx _]. auto.
  - (* packed *)
    intros fs os vs ovs i num max sc tg p l zs old Hf Ho Htg (Hl & Hlv) Hp Hm. split.
    { apply varint32_nonempty in Htg. destruct tg; [congruence|discriminate]. }
    intros v S R rel ok tail s fuel0 Hd Hg Hr Hfu.
    destruct (desc_field _ _ _ _ _ _ Hd Hf) as (_ & Hnum & Hcap).
    destruct (good_VM _ _ _ _ _ Hg) as (pres & xs & os' & -> & Hpz & Hpu & Hw & _ & Hc & _ & Ev & _). rewrite Ev in Ho.
    destruct (nth_error_len_view _ _ _ _ _ _ _ _ Hw Hf Ho) as (x & Hx & En & Hwx).
    cbn [view_field wt_field] in En, Hwx. destruct x as [| | |len data|]; try contradiction. injection En as ->.
    destruct Hwx as (Hlen & Hz & Hwd). rewrite zlen_map, zlen_firstn in Hm.
    rewrite <- app_assoc in Hr.
    destruct (DeserializeTag_wf ok tg ((l ++ p) ++ tail) s num LENDEL) as (s1 & Et & Hr1); auto; [lia|].
    rewrite <- app_assoc in Hr1.
    destruct (DeserializeVarint_wf ok 32 l (p ++ tail) s1) as (s2 & E2 & Hr2); auto; [left; reflexivity|].
    rewrite !app_length in Hfu.
    destruct (packed_loop (sec_ok R rel tail ok) sc max p zs Hp fuel0 VIndet len data (mk_section R s2 (zlen p)))
      as (data' & s3 & E3 & Hr3 & Hz' & Hw' & Hfn); auto; try lia.
    { now apply mk_section_rel. }
    exists LENDEL, num, s1, (VM pres (upd i (VR (len + zlen zs) data') xs) os'), (sec_parent s3).
    split; [exact Et|]. split; [|split].
    + unfold msg_dispatch. rewrite (desc_find_field fuel0 _ _ _ _ _ _ Hd Hf). rewrite (aget_nat _ _ _ Hx). cbn [bind].
      unfold field_deserialize, rep_deserialize_check_type, wt_eqb. rewrite Z.eqb_refl. unfold rep_deserialize_packed.
      rewrite E2. cbn [bind]. rewrite Hlv. rewrite E3. cbn [bind]. rewrite aset_nat by (eapply nth_error_lt; eauto). reflexivity.
    + destruct Hr3 as (Hr3 & _). exact Hr3.
    + pose proof (zlen_nonneg zs). eapply good_field; eauto using agree_but_refl.
      * cbn [wt_field]. split; [lia|]. auto.
      * cbn [clean_field]. exact I.
      * cbn [view_field]. rewrite Hfn, map_app, map_view_VS. reflexivity.
  - (* repeated strings, bytes and messages *)
    intros fs os vs ovs i num max t tg p l old new Hf Ho Hpk Htg Hl He IH Hm. split.
    { apply varint32_nonempty in Htg. destruct tg; [congruence|discriminate]. }
    intros v S R rel ok tail s fuel0 Hd Hg Hr Hfu.
    destruct (desc_field _ _ _ _ _ _ Hd Hf) as (Hdt & Hnum & Hcap).
    destruct (good_VM _ _ _ _ _ Hg) as (pres & xs & os' & -> & Hpz & Hpu & Hw & _ & Hc & _ & Ev & _). rewrite Ev in Ho.
    destruct (nth_error_len_view _ _ _ _ _ _ _ _ Hw Hf Ho) as (x & Hx & En & Hwx).
    pose proof (clean_fields_nth _ _ _ _ _ _ _ _ _ Hf Hx Hc) as Hcx. rewrite Z.add_0_l in Hcx.
    cbn [view_field wt_field] in En, Hwx. destruct x as [| | |len data|]; try contradiction. injection En as ->.
    destruct Hwx as (Hlen & Hz & Hwd). rewrite zlen_map, zlen_firstn in Hm.
    rewrite <- app_assoc in Hr.
    destruct (DeserializeTag_wf ok tg ((l ++ p) ++ tail) s num LENDEL) as (s1 & Et & Hr1); auto; [lia|].
    unfold capacity_ok in Hcap.
    destruct (aget_ok data len) as (y & Ey & Hy); [lia|].
    assert (Hre : ready t y (sdefault t)).
    { destruct t as [| |fs' os2]; cbn [ready]; auto. cbn [clean_field] in Hcx. apply all_Forall in Hcx, Hwd.
      rewrite (skipn_cons_nth _ _ _ Hy) in Hcx. inversion Hcx as [|? ? [Hcy Hvy] _]; subst. split; [|auto].
      eapply Forall_forall in Hwd; [exact Hwd|]. eapply nth_error_In; eauto. }
    assert (Hbody : body t p (l ++ p)) by (destruct t; [discriminate|exists l; auto|exists l; auto]).
    destruct (IH y S R rel ok (l ++ p) tail s1 fuel0) as (y' & s2 & Ee & Hr2 & (Hwy & Hcy & Hvy)); auto.
    { rewrite !app_length in *. lia. }
    exists LENDEL, num, s1, (VM pres (upd i (VR (len + 1) (upd (Z.to_nat len) y' data)) xs) os'), s2.
    split; [exact Et|]. split; [|split; [exact Hr2|]].
    + unfold msg_dispatch. rewrite (desc_find_field fuel0 _ _ _ _ _ _ Hd Hf). rewrite (aget_nat _ _ _ Hx). cbn [bind].
      unfold field_deserialize, rep_deserialize_check_type, wt_eqb. rewrite Z.eqb_refl.
      assert (Eu : rep_deserialize_unpacked t (deserialize fuel0 t) S R (VR len data) s1
                   = Done (NoErrors, VR (len + 1) (upd (Z.to_nat len) y' data), s2)).
      { unfold rep_deserialize_unpacked, rep_get. destruct (Z.ltb_spec len (zlen data)); [|lia].
        rewrite u32_small by lia. rewrite Z.min_l by lia. destruct (Z.leb_spec len len); [|lia]. rewrite Ey. cbn [bind].
        unfold elem_deserialize_check_type, elem_wiretype, wt_eqb, deserialize_section in Ee.
        destruct t as [|st mx|fs' os2]; [discriminate Hpk| |]; rewrite Z.eqb_refl in Ee.
        - rewrite Ee. cbn [bind]. rewrite aset_ok by lia. reflexivity.
        - destruct (DeserializeVarint R 32 s1) as [[[e on] s3]| |] eqn:Edv; cbn [bind] in *; try discriminate.
          destruct e; try discriminate. destruct on as [n|]; [|exfalso; eapply DeserializeVarint_some; eauto].
          destruct (deserialize fuel0 (EMsg fs' os2) _ _ y _) as [[[e v1] sec]| |]; cbn [bind] in *; try discriminate.
          injection Ee as -> -> <-. rewrite aset_ok by lia. reflexivity. }
      destruct t as [|st mx|fs' os2]; [discriminate Hpk| |]; rewrite Eu; cbn [bind];
        rewrite aset_nat by (eapply nth_error_lt; eauto); reflexivity.
    + eapply good_field; eauto using agree_but_refl.
      * cbn [wt_field]. split; [lia|]. rewrite zlen_upd. split; [auto|]. apply all_Forall. apply Forall_upd; auto. now apply all_Forall.
      * cbn [clean_field] in *. destruct t as [| |fs' os2]; auto. apply all_Forall in Hcx. apply all_Forall.
        replace (Z.to_nat (len + 1)) with (Datatypes.S (Z.to_nat len)) by lia. rewrite skipn_S_upd.
        rewrite (skipn_cons_nth _ _ _ Hy) in Hcx. now inversion Hcx.
      * cbn [view_field]. replace (Z.to_nat (len + 1)) with (Datatypes.S (Z.to_nat len)) by lia.
        rewrite firstn_S_upd by (unfold zlen in *; lia). rewrite map_app. cbn [map]. now rewrite Hvy.
  - (* oneof, same member *)
    intros fs os vs ovs j num t ms tg p bs old new Hms Hlk Ho Htg Hb _ IH. split.
    { apply varint32_nonempty in Htg. destruct tg; [congruence|discriminate]. }
    intros v S R rel ok tail s fuel0 Hd Hg Hr Hfu.
    destruct (good_VM _ _ _ _ _ Hg) as (pres & xs & os' & -> & _ & _ & _ & Hw & _ & Hc & _ & Ev). rewrite Ev in Ho.
    destruct (view_oneofs_nth _ _ _ _ _ Hms Ho) as (o & Hoj & Evo).
    destruct (all2_nth _ _ _ _ _ Hw Hms) as (o' & Ho' & Hwo). rewrite Hoj in Ho'. injection Ho' as <-.
    destruct (all2_nth _ _ _ _ _ Hc Hms) as (o' & Ho' & Hco). rewrite Hoj in Ho'. injection Ho' as <-.
    unfold view_oneof, wt_oneof, clean_oneof in Evo, Hwo, Hco. rewrite lookup_map in Evo. rewrite lookup_map in Hwo. rewrite lookup_map in Hco.
    destruct (lookup ms (fst o)) as [t'|] eqn:El; cbn [option_map] in *; [|discriminate].
    injection Evo as En Eo. rewrite En in Hlk. rewrite El in Hlk. injection Hlk as ->.
    eapply (dispatch_oneof fs os pres xs os' vs ovs j ms num t o); eauto; try congruence.
    rewrite En, Z.eqb_refl. destruct t; cbn [ready]; auto.
  - (* oneof, other member *)
    intros fs os vs ovs j num t ms tg p bs which old new Hms Hlk Ho Hne Htg Hb _ IH. split.
    { apply varint32_nonempty in Htg. destruct tg; [congruence|discriminate]. }
    intros v S R rel ok tail s fuel0 Hd Hg Hr Hfu.
    destruct (desc_member _ _ _ _ _ _ Hd Hms Hlk) as (Hdt & Hnum).
    destruct (good_VM _ _ _ _ _ Hg) as (pres & xs & os' & -> & _ & _ & _ & Hw & _ & Hc & _ & Ev). rewrite Ev in Ho.
    destruct (view_oneofs_nth _ _ _ _ _ Hms Ho) as (o & Hoj & Evo).
    destruct (all2_nth _ _ _ _ _ Hw Hms) as (o' & Ho' & Hwo). rewrite Hoj in Ho'. injection Ho' as <-.
    unfold view_oneof, wt_oneof in Evo, Hwo. rewrite lookup_map in Evo. rewrite lookup_map in Hwo.
    assert (Efst : num <> fst o).
    { destruct (lookup ms (fst o)) as [t'|] eqn:El; cbn [option_map] in *; [injection Evo as <- _; congruence|lia]. }
    eapply (dispatch_oneof fs os pres xs os' vs ovs j ms num t o); eauto.
    destruct (Z.eqb_spec num (fst o)); [contradiction|]. now apply placement_ready.
  - (* unknown *)
    intros fs os vs ovs num w tg bs Hn H0 Htg Hs _. split.
    { apply varint32_nonempty in Htg. destruct tg; [congruence|discriminate]. }
    intros v S R rel ok tail s fuel0 Hd Hg Hr Hfu.
    rewrite <- app_assoc in Hr.
    destruct (DeserializeTag_wf ok tg (bs ++ tail) s num w) as (s1 & Et & Hr1); auto; [lia|].
    assert (Hsk : exists s2, skip_unknown_field w R s1 = Done (NoErrors, s2) /\ rel s2 tail).
    { unfold skip_unknown_field, DeserializeFloat, DeserializeDouble, skip_length_delimited. inversion Hs; subst.
      - destruct (DeserializeVarint_wf ok 64 bs tail s1) as (s2 & -> & Hr2); auto; [right; reflexivity|]. cbn [bind]. eauto.
      - destruct (DeserializeFixed_full ok 32 bs tail s1) as (s2 & -> & Hr2); auto; [unfold zlen; lia|]. cbn [bind]. eauto.
      - destruct (DeserializeFixed_full ok 64 bs tail s1) as (s2 & -> & Hr2); auto; [unfold zlen; lia|]. cbn [bind]. eauto.
      - destruct H as (Hl & Hlv). rewrite <- app_assoc in Hr1.
        destruct (DeserializeVarint_wf ok 32 l (p ++ tail) s1) as (s2 & -> & Hr2); auto; [left; reflexivity|]. cbn [bind].
        rewrite Hlv. destruct (ro_advance_n _ _ ok s2 (p ++ tail) (zlen p) Hr2) as (o & s3 & -> & Hr3 & _).
        { rewrite zlen_app. pose proof (zlen_nonneg p). pose proof (zlen_nonneg tail). lia. }
        cbn [bind]. rewrite skipn_all_app in Hr3 by (unfold zlen; lia). eauto. }
    destruct Hsk as (s2 & Esk & Hr2).
    exists w, num, s1, v, s2. split; [exact Et|]. split; [|auto].
    destruct (good_VM _ _ _ _ _ Hg) as (pres & xs & os' & -> & _). unfold msg_dispatch.
    unfold field_numbers in Hn. rewrite in_app_iff in Hn.
    rewrite find_field_none by tauto. rewrite find_oneof_none by tauto.
    destruct (Z.eqb_spec num 0); [lia|]. rewrite Esk. reflexivity.
Qed.
