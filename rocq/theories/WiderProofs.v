(** A class with room for more decodes and encodes the same (C90). *)
From Verif Require Import Base Buffers Wire Schema Fields Message Spec Struct SerProofs Contracts SpecRead ReadTotal MalformedProps SpecWider.
Require Import Lia.

(* ------------------------------------------------------------------------------------------- *)
(** ** The two types *)

Lemma all2_nth' {A B} (P : A -> B -> Prop) l l' i x : all2 P l l' -> nth_error l i = Some x -> exists y, nth_error l' i = Some y /\ P x y.
Proof.
  revert l' i. induction l as [|a l IH]; intros [|b l'] [|i] H E; cbn in *; try tauto; try discriminate.
  - injection E as ->. exists b. tauto.
  - now apply IH.
Qed.

Lemma wider_field fs os fs' os' i num k t : wider (EMsg fs os) (EMsg fs' os') -> nth_error fs i = Some (num, k, t) ->
  exists k' t', nth_error fs' i = Some (num, k', t') /\ wider_kind k k' /\ wider t t'.
Proof.
  intros (H & _) E. destruct (all2_nth' _ _ _ _ _ H E) as ([[num' k'] t'] & E' & -> & Hk & Ht). now exists k', t'.
Qed.

Lemma wider_lookup ms ms' num t : all2 (fun '(num, t) '(num', t') => num = num' /\ wider t t') ms ms' -> lookup ms num = Some t ->
  exists t', lookup ms' num = Some t' /\ wider t t'.
Proof.
  revert ms'. induction ms as [|[n u] ms IH]; intros [|[n' u'] ms'] H E; cbn in *; try tauto; try discriminate.
  destruct H as ((<- & Hu) & H). destruct (n =? num); [injection E as ->; now exists u'|now apply IH].
Qed.

Lemma wider_no_lookup ms ms' num : all2 (fun '(num, t) '(num', t') => num = num' /\ wider t t') ms ms' -> lookup ms num = None -> lookup ms' num = None.
Proof.
  revert ms'. induction ms as [|[n u] ms IH]; intros [|[n' u'] ms'] H E; cbn in *; try tauto; try discriminate.
  destruct H as ((<- & Hu) & H). destruct (n =? num); [discriminate|now apply IH].
Qed.

Lemma wider_member fs os fs' os' j ms num t : wider (EMsg fs os) (EMsg fs' os') -> nth_error os j = Some ms -> lookup ms num = Some t ->
  exists ms' t', nth_error os' j = Some ms' /\ lookup ms' num = Some t' /\ wider t t'.
Proof.
  intros (_ & H) E El. destruct (all2_nth' _ _ _ _ _ H E) as (ms' & E' & Hm).
  destruct (wider_lookup _ _ _ _ Hm El) as (t' & El' & Ht). now exists ms', t'.
Qed.

Lemma wider_numbers fs os fs' os' : wider (EMsg fs os) (EMsg fs' os') -> field_numbers fs os = field_numbers fs' os'.
Proof.
  intros (Hf & Ho). unfold field_numbers. f_equal.
  - revert fs' Hf. induction fs as [|[[n k] t] fs IH]; intros [|[[n' k'] t'] fs'] H; cbn in *; try tauto.
    destruct H as ((-> & _) & H). f_equal. now apply IH.
  - clear Hf. revert os' Ho. induction os as [|ms os IH]; intros [|ms' os'] H; cbn in *; try tauto.
    destruct H as (Hm & H). f_equal; [|now apply IH].
    clear IH H. revert ms' Hm. induction ms as [|[n t] ms IH]; intros [|[n' t'] ms'] H; cbn in *; try tauto.
    destruct H as ((-> & _) & H). f_equal. now apply IH.
Qed.

Lemma wider_default t : forall t', wider t t' -> sdefault t = sdefault t'.
Proof.
  induction t as [sc|st max|fs os Hf Ho] using ety_ind'; intros [sc'|st' max'|fs' os'] H; cbn [wider] in H; try tauto; try reflexivity.
  destruct H as (H1 & H2). cbn [sdefault]. f_equal.
  - clear Ho H2. revert fs' H1. induction Hf as [|[[n k] t] fs Ht Hf IH]; intros [|[[n' k'] t'] fs'] H; cbn in H; try tauto; try reflexivity.
    destruct H as ((_ & Hk & Hw) & H). cbn [map]. f_equal; [|now apply IH]. cbn [snd] in Ht. rewrite (Ht _ Hw).
    destruct k, k'; cbn in Hk; try tauto; reflexivity.
  - clear Hf H1 Ho. revert os' H2. induction os as [|ms os IH]; intros [|ms' os'] H; cbn in *; try tauto; try reflexivity. f_equal. now apply IH.
Qed.

Lemma wider_wiretype t t' : wider t t' -> elem_wiretype t = elem_wiretype t'.
Proof. destruct t, t'; cbn; try tauto; congruence. Qed.
Lemma wider_packed t t' : wider t t' -> is_packed t = is_packed t'.
Proof. destruct t, t'; cbn; try tauto; congruence. Qed.

(* ------------------------------------------------------------------------------------------- *)
(** ** Decoding *)

Lemma varint_fails_not_full k bs e rest : varint_fails k bs e rest -> e <> ArrayFull.
Proof. intros H. inversion H; discriminate. Qed.


Lemma wider_reads d : forall bd,
  (forall t old bs e new rest, eread d bd t old bs e new rest -> forall t', wider t t' -> e <> ArrayFull -> eread d bd t' old bs e new rest)
  /\ (forall fs os old bs e new rest, mread d bd fs os old bs e new rest ->
      forall fs' os', wider (EMsg fs os) (EMsg fs' os') -> e <> ArrayFull -> mread d bd fs' os' old bs e new rest)
  /\ (forall fs os old bs e new rest, rread d bd fs os old bs e new rest ->
      forall fs' os', wider (EMsg fs os) (EMsg fs' os') -> e <> ArrayFull -> rread d bd fs' os' old bs e new rest)
  /\ (forall k t w x bs e x' rest, fread d bd k t w x bs e x' rest ->
      forall k' t', wider_kind k k' -> wider t t' -> e <> ArrayFull -> fread d bd k' t' w x bs e x' rest).
Proof.
  apply read_ind.
  - intros bd sc old c z rest Hs [sc'|?|?] H Hn; cbn in H; try tauto. subst sc'. now constructor.
  - intros bd sc old bs e rest Hs [sc'|?|?] H Hn; cbn in H; try tauto. subst sc'. now constructor.
  - intros bd t old bs e rest Hp Hv t' H Hn. apply eread_length; [now rewrite <- (wider_packed _ _ H)|exact Hv].
  - intros bd st max old l p rest Hv Hl [?|st' max'|?] H Hn; cbn in H; try tauto. apply eread_bytes; [exact Hv|lia].
  - congruence.
  - intros bd st max old l n p Hv Hl [?|st' max'|?] H Hn; cbn in H; try tauto. eapply eread_cut; [exact Hv|lia].
  - intros bd fs os old l n p e new rest tail Hv Hs Hm IH [?|? ?|fs' os'] H Hn; try (cbn in H; tauto).
    eapply eread_msg; eauto.
  - intros; now apply mread_end.
  - intros; now apply mread_tag_overlong.
  - intros; eapply mread_tag_wiretype; eauto.
  - intros bd fs os old bs e new rest Hr IH He fs' os' H Hn. apply mread_stop; auto.
  - intros bd fs os old bs mid bs' e new rest Hr IHr Hm IHm fs' os' H Hn. eapply mread_next; [|eauto]. apply IHr; [exact H|discriminate].
  - intros; eapply rread_zero; eauto.
  - intros bd fs os vs ovs i num k t x tg w bs e x' rest Ef Ev Ht Hf IH fs' os' H Hn.
    destruct (wider_field _ _ _ _ _ _ _ _ H Ef) as (k' & t' & Ef' & Hk & Hw). eapply rread_field; eauto.
  - intros bd fs os vs ovs j ms num t o tg w bs Eo El Ev Ht Hw fs' os' H Hn.
    destruct (wider_member _ _ _ _ _ _ _ _ H Eo El) as (ms' & t' & Eo' & El' & Hw').
    eapply rread_oneof_wiretype; eauto. now rewrite <- (wider_wiretype _ _ Hw').
  - intros bd fs os vs ovs j ms num t o tg bs e x' rest Eo El Ev Ht He IH fs' os' H Hn.
    destruct (wider_member _ _ _ _ _ _ _ _ H Eo El) as (ms' & t' & Eo' & El' & Hw').
    eapply rread_oneof; eauto; [now rewrite <- (wider_wiretype _ _ Hw')|].
    specialize (IH _ Hw' Hn). unfold member_start, opt_start in *. now rewrite <- (wider_default _ _ Hw').
  - intros bd fs os vs ovs num tg w r rest Hi Hp Ht Hs fs' os' H Hn. rewrite (wider_numbers _ _ _ _ H) in Hi. eapply rread_unknown; eauto.
  - intros bd fs os vs ovs num tg w bs e rest Hi Hp Ht Hs fs' os' H Hn. rewrite (wider_numbers _ _ _ _ H) in Hi. eapply rread_unknown_fails; eauto.
  - intros bd fs os vs ovs num tg l n p Hb Hi Hp Ht Hl Hz fs' os' H Hn. rewrite (wider_numbers _ _ _ _ H) in Hi. eapply rread_unknown_rest; eauto.
  - intros bd fs os vs ovs num tg w rest Hi Hp Hw Ht fs' os' H Hn. rewrite (wider_numbers _ _ _ _ H) in Hi. eapply rread_unknown_group; eauto.
  - intros bd t w x bs Hw k' t' Hk Ht Hn. destruct k'; cbn in Hk; try tauto. apply fread_plain_wiretype. now rewrite <- (wider_wiretype _ _ Ht).
  - intros bd t w x bs Hw k' t' Hk Ht Hn. destruct k'; cbn in Hk; try tauto.
    assert (E : shown t x = shown t' x) by (unfold shown; now rewrite (wider_default _ _ Ht)). rewrite E.
    apply fread_opt_wiretype. now rewrite <- (wider_wiretype _ _ Ht).
  - intros bd max t w x bs Hw k' t' Hk Ht Hn. destruct k'; cbn in Hk; try tauto. now apply fread_rep_wiretype.
  - intros bd t x bs e x' rest He IH k' t' Hk Ht Hn. destruct k'; cbn in Hk; try tauto. rewrite (wider_wiretype _ _ Ht). apply fread_plain; auto.
  - intros bd t x bs e x' rest He IH k' t' Hk Ht Hn. destruct k'; cbn in Hk; try tauto. rewrite (wider_wiretype _ _ Ht). apply fread_opt.
    specialize (IH _ Ht Hn). unfold opt_start in *. now rewrite <- (wider_default _ _ Ht).
  - intros bd t w x bs k' t' Hk Ht Hn. destruct k'; cbn in Hk; try tauto. apply fread_recursive.
  - congruence.
  - intros bd max fs os old bs e rest Hz Hv [| |max'|] [?|? ?|fs' os'] Hk Ht Hn; cbn in Hk; try tauto; try (cbn in Ht; tauto).
    apply fread_rep_msg_length; [lia|exact Hv].
  - intros bd max fs os old l n p e new rest tail Hz Hv Hs Hm IH [| |max'|] [?|? ?|fs' os'] Hk Ht Hn; cbn [wider_kind] in Hk; try tauto; try (cbn in Ht; tauto).
    eapply fread_rep_msg; eauto; [lia|]. rewrite <- (wider_default _ _ Ht). auto.
  - intros bd max st cap old l p rest Hz Hv Hc [| |max'|] [?|st' cap'|? ?] Hk Ht Hn; cbn in Hk, Ht; try tauto. apply fread_rep_bytes; try lia; auto.
  - intros bd max st cap old l n p Hz Hv Hc [| |max'|] [?|st' cap'|? ?] Hk Ht Hn; cbn in Hk, Ht; try tauto. eapply fread_rep_bytes_cut; try lia; eauto. lia.
  - intros bd max st cap old x bs e rest Hd Hz Hv [| |max'|] [?|st' cap'|? ?] Hk Ht Hn; cbn in Hk, Ht; try tauto. apply fread_rep_bytes_length; try lia; auto.
  - congruence.
  - intros bd max sc old bs e rest Hv [| |max'|] [sc'|? ?|? ?] Hk Ht Hn; cbn in Hk, Ht; try tauto. subst sc'. eapply fread_packed_length; eauto.
  - intros bd max sc old l n q zs r tail Hv Hs Hp Hz Hf [| |max'|] [sc'|? ?|? ?] Hk Ht Hn; cbn in Hk, Ht; try tauto. subst sc'.
    eapply fread_packed; eauto. lia.
  - intros bd max sc old l n q zs r e rest tail Hv Hs Hp Hz Hf He [| |max'|] [sc'|? ?|? ?] Hk Ht Hn; cbn in Hk, Ht; try tauto. subst sc'.
    eapply fread_packed_fails; eauto. lia.
  - congruence.
Qed.

Lemma wider_mread d bd fs os fs' os' old bs e new rest : mread d bd fs os old bs e new rest -> wider (EMsg fs os) (EMsg fs' os') -> e <> ArrayFull ->
  mread d bd fs' os' old bs e new rest.
Proof. intros H. exact (proj1 (proj2 (wider_reads d bd)) _ _ _ _ _ _ _ H fs' os'). Qed.

Lemma err_full_dec (e : err) : e = ArrayFull \/ e <> ArrayFull.
Proof. destruct e; ((left; reflexivity) || (right; discriminate)). Qed.

Lemma wider_outcome : forall fs os fs' os' v v' bs, let t := EMsg fs os in let t' := EMsg fs' os' in
  desc_ok t -> desc_ok t' -> wider t t' -> wt t v -> clean t v -> wt t' v' -> clean t' v' -> view t v = view t' v' ->
  Forall is_byte bs -> forall bd, bd = true \/ ~ mover fs os (view t v) bs ->
  forall S1 (R1 : rops S1) rel1 S2 (R2 : rops S2) rel2, reader_ok R1 rel1 -> reader_ok R2 rel2 ->
  (bd = true -> reader_bounded R1 rel1) -> (bd = true -> reader_bounded R2 rel2) ->
  forall s1 s2, rel1 s1 bs -> rel2 s2 bs -> forall fuel1 fuel2, (length bs < fuel1)%nat -> (length bs < fuel2)%nat ->
  exists e w s1', deserialize fuel1 t S1 R1 v s1 = Done (e, w, s1')
    /\ (e = ArrayFull
        \/ exists w' s2' rest, deserialize fuel2 t' S2 R2 v' s2 = Done (e, w', s2') /\ rel1 s1' rest /\ rel2 s2' rest
           /\ (e = NoErrors -> view t w = view t' w')).
Proof.
  intros fs os fs' os' v v' bs t t' Hd Hd' Hwd Hw Hc Hw' Hc' Ev Hb bd Hno S1 R1 rel1 S2 R2 rel2 ok1 ok2 bd1 bd2 s1 s2 Hr1 Hr2 fuel1 fuel2 Hf1 Hf2.
  destruct (read_total bd fs os v bs Hd Hw Hc Hb) as [(e & new & rest & H)|[Hbd H]]; [|exfalso; destruct Hno; [congruence|contradiction]].
  destruct (decode_reads fs os v false bd bs e new rest Hd Hw Hc H S1 R1 rel1 ok1 bd1 s1 Hr1 fuel1 Hf1)
    as (w & s1' & E1 & Hr1' & _ & _ & _ & Hv1).
  exists e, w, s1'. split; [exact E1|]. destruct (err_full_dec e) as [He|He]; [now left|right].
  pose proof (wider_mread _ _ _ _ _ _ _ _ _ _ _ H Hwd He) as H'. change (view (EMsg fs os) v) with (view t v) in H'. rewrite Ev in H'.
  destruct (decode_reads fs' os' v' false bd bs e new rest Hd' Hw' Hc' H' S2 R2 rel2 ok2 bd2 s2 Hr2 fuel2 Hf2)
    as (w' & s2' & E2 & Hr2' & _ & _ & _ & Hv2).
  exists w', s2', rest. do 3 (split; [assumption|]). intros Hn. fold t in Hv1. fold t' in Hv2. rewrite Hv1, Hv2; auto.
Qed.

Lemma wider_fixed : forall fs os fs' os' v v' bs, let t := EMsg fs os in let t' := EMsg fs' os' in
  desc_ok t -> desc_ok t' -> wider t t' -> wt t v -> clean t v -> wt t' v' -> clean t' v' -> view t v = view t' v' ->
  Forall is_byte bs -> ~ mover fs os (view t v) bs ->
  forall S1 (R1 : rops S1) rel1 S2 (R2 : rops S2) rel2, reader_ok R1 rel1 -> reader_ok R2 rel2 ->
  forall s1 s2, rel1 s1 bs -> rel2 s2 bs -> forall fuel1 fuel2, (length bs < fuel1)%nat -> (length bs < fuel2)%nat ->
  exists e w s1', deserialize fuel1 t S1 R1 v s1 = Done (e, w, s1')
    /\ (e = ArrayFull
        \/ exists w' s2' rest, deserialize fuel2 t' S2 R2 v' s2 = Done (e, w', s2') /\ rel1 s1' rest /\ rel2 s2' rest
           /\ (e = NoErrors -> view t w = view t' w')).
Proof.
  intros. eapply (wider_outcome fs os fs' os' v v' bs) with (bd := false); eauto; discriminate.
Qed.

Lemma wider_bounded : forall fs os fs' os' v v' bs, let t := EMsg fs os in let t' := EMsg fs' os' in
  desc_ok t -> desc_ok t' -> wider t t' -> wt t v -> clean t v -> wt t' v' -> clean t' v' -> view t v = view t' v' ->
  Forall is_byte bs ->
  forall S1 (R1 : rops S1) rel1 S2 (R2 : rops S2) rel2, reader_ok R1 rel1 -> reader_ok R2 rel2 ->
  reader_bounded R1 rel1 -> reader_bounded R2 rel2 ->
  forall s1 s2, rel1 s1 bs -> rel2 s2 bs -> forall fuel1 fuel2, (length bs < fuel1)%nat -> (length bs < fuel2)%nat ->
  exists e w s1', deserialize fuel1 t S1 R1 v s1 = Done (e, w, s1')
    /\ (e = ArrayFull
        \/ exists w' s2' rest, deserialize fuel2 t' S2 R2 v' s2 = Done (e, w', s2') /\ rel1 s1' rest /\ rel2 s2' rest
           /\ (e = NoErrors -> view t w = view t' w')).
Proof.
  intros. eapply (wider_outcome fs os fs' os' v v' bs) with (bd := true); eauto.
Qed.
