(** Lemmas behind the decoding properties (C20-C24, C47). *)
From Verif Require Import Base Buffers Wire Schema Fields Message Spec Contracts BitLemmas
  ReadProofs ScalarProofs BufferProofs Struct SerProofs Tables DecodeProofs RoundTrip ClearProofs Api.
From Coq Require Import ZifyBool ZifyNat ZifyN.
Ltac Zify.zify_post_hook ::= Z.div_mod_to_equations.

(** C22 *)
Lemma decode_merge fs os v bs new : let t := EMsg fs os in
  desc_ok t -> wt t v -> clean t v -> mdec fs os (view t v) bs new ->
  forall S (R : rops S) rel, reader_ok R rel -> forall s, rel s bs ->
  forall fuel, (length bs < fuel)%nat ->
  exists v' s', deserialize fuel t S R v s = Done (NoErrors, v', s')
    /\ rel s' [] /\ view t v' = new /\ wt t v' /\ clean t v'.
Proof.
  intros t Hd Hw Hc Hm S R rel ok s Hr fuel Hf. destruct decode_ok as (_ & H & _).
  destruct (H _ _ _ _ _ Hm v S R rel ok s fuel fuel) as (v' & s' & E & Hr' & Hw' & Hc' & Hv'); auto.
  { split; [exact Hw|]. split; [exact Hc|reflexivity]. }
  exists v', s'. split; [exact E|]. auto.
Qed.

(** C20 *)
Definition fresh (t : ety) (v : value) : Prop :=
  v = default_value t \/ exists w, wt t w /\ clear t w = Done v.

Lemma fresh_good t v : desc_ok t -> fresh t v -> good t v (sdefault t).
Proof.
  intros Hd [->|(w & Hw & E)]; [exact (default_ok t Hd)|].
  destruct (clear_good t w Hw Hd) as (v' & E' & Hg). rewrite E in E'. injection E' as ->. exact Hg.
Qed.

Lemma round_trip0 fs os v v0 : let t := EMsg fs os in
  desc_ok t -> wt t v -> zlen (enc t (view t v)) < 2 ^ 32 ->
  wt t v0 -> clean t v0 -> view t v0 = sdefault t ->
  forall cap b c n b', wfix_rel cap b c (Some n) ->
  serialize t v _ (wfix_ops cap) b = Done (NoErrors, b') ->
  exists bytes, wfix_content b' = wfix_content b ++ bytes /\
  forall S (R : rops S) rel, reader_ok R rel -> forall s, rel s bytes ->
  forall fuel, (length bytes < fuel)%nat ->
  exists v' s', deserialize fuel t S R v0 s = Done (NoErrors, v', s')
    /\ view t v' = norm t (view t v) /\ wt t v' /\ clean t v'.
Proof.
  intros t Hd Hw Hz Hw0 Hc0 Hv0 cap b c n b' Hr E. exists (enc t (view t v)). split.
  { destruct (serialize_wrote t v Hw Hd Hz _ _ _ _ (wfix_ok cap) b c (Some n) Hr) as (e & s1 & E1 & H); [right; exact I|].
    rewrite E1 in E. injection E as -> ->. destruct H as [(_ & H & _)|([=] & _)].
    destruct Hr as (_ & _ & _ & _ & Hc & _). destruct H as (_ & _ & _ & _ & H & _).
    unfold wfix_content. rewrite <- H, <- Hc. reflexivity. }
  intros S R rel ok s Hrel fuel Hfu.
  assert (Hm : mdec fs os (view t v0) (enc t (view t v)) (norm t (view t v))).
  { rewrite Hv0. pose proof (enc_decodes true t v Hw Hd Hz) as He. now inversion He. }
  destruct (decode_merge fs os v0 _ _ Hd Hw0 Hc0 Hm S R rel ok s Hrel fuel Hfu) as (v' & s' & E' & _ & H & H').
  exists v', s'. auto.
Qed.

Lemma norm_id t : forall v, wt t v -> no_neg_zero t (view t v) -> norm t (view t v) = view t v.
Proof.
  induction t as [sc|st max|fs os Hf Ho] using ety_ind'; intros v Hw Hn; [reflexivity|reflexivity|].
  destruct v as [| | | |pres xs ovs]; try contradiction. rewrite view_tab in *. rewrite norm_tab.
  cbn [wt] in Hw. destruct Hw as (_ & _ & Hw1 & Hw2). cbn [no_neg_zero] in Hn. destruct Hn as [Hn1 Hn2]. f_equal.
  - clear Hn2 Hw2 Ho ovs. revert xs Hw1 Hn1. generalize 0 as i.
    induction Hf as [|[[num k] t] fs Ht Hf IH]; intros i xs Hw Hn; destruct xs as [|x xs]; cbn [all2] in Hw; try contradiction; [reflexivity|].
    destruct Hw as [Hwx Hw]. cbn [vtab ntab map view_fields norm_fields all2] in *. destruct Hn as [Hnx Hn].
    f_equal; [|eapply IH; eauto]. cbn [snd] in Ht.
    destruct k as [| |max|]; cbn [view_field norm_field no_neg_zero_field wt_field] in *.
    + destruct t as [sc|st max|fs' os'].
      * destruct x as [z| | | |]; try contradiction. cbn [view norm] in *.
        destruct (is_zero sc z); [rewrite Hnx; reflexivity|reflexivity].
      * specialize (Ht x Hwx). destruct x; try contradiction. reflexivity.
      * specialize (Ht x Hwx). destruct x; try contradiction. apply Ht. exact Hnx.
    + destruct (present pres i); [|reflexivity]. now rewrite Ht.
    + destruct x as [| | |len data|]; try contradiction. destruct Hwx as (_ & _ & Hwd). apply all_Forall in Hwd.
      apply (Forall_firstn _ (Z.to_nat len)) in Hwd. f_equal. apply all_Forall in Hnx.
      induction (firstn (Z.to_nat len) data) as [|y l IHl]; [reflexivity|]. cbn [map] in *. inversion Hwd; inversion Hnx; subst.
      f_equal; auto.
    + reflexivity.
  - clear Hn1 Hw1 Hf xs. revert ovs Hw2 Hn2.
    induction os as [|ms os IH]; intros ovs Hw Hn; destruct ovs as [|o ovs]; cbn [all2] in Hw; try contradiction; [reflexivity|].
    destruct Hw as [Hwo Hw]. inversion Ho; subst.
    cbn [votab notab map view_oneofs norm_oneofs all2] in *. destruct Hn as [Hno Hn].
    f_equal; [|apply IH; auto]. clear IH. unfold wt_oneof, view_oneof, norm_oneof, no_neg_zero_oneof in *.
    rewrite (lookup_map wt) in Hwo. rewrite (lookup_map view) in Hno |- *.
    destruct (lookup ms (fst o)) as [t|] eqn:El; cbn [option_map fst snd] in *.
    + rewrite (lookup_map no_neg_zero), El in Hno. cbn [option_map] in Hno. rewrite (lookup_map norm), El. cbn [option_map].
      apply lookup_In in El. eapply Forall_forall in H1; [|exact El]. cbn [snd] in H1. now rewrite H1.
    + clear Hno. destruct (lookup _ 0); reflexivity.
Qed.

Lemma round_trip fs os v v0 : let t := EMsg fs os in
  desc_ok t -> wt t v -> zlen (enc t (view t v)) < 2 ^ 32 ->
  v0 = default_value t \/ (exists w, wt t w /\ clear t w = Done v0) ->
  forall cap b c n b', wfix_rel cap b c (Some n) ->
  serialize t v _ (wfix_ops cap) b = Done (NoErrors, b') ->
  exists bytes, wfix_content b' = wfix_content b ++ bytes /\
  forall S (R : rops S) rel, reader_ok R rel -> forall s, rel s bytes ->
  forall fuel, (length bytes < fuel)%nat ->
  exists v' s', deserialize fuel t S R v0 s = Done (NoErrors, v', s')
    /\ view t v' = norm t (view t v) /\ (no_neg_zero t (view t v) -> view t v' = view t v).
Proof.
  intros t Hd Hw Hz Hf cap b c n b' Hr E. destruct (fresh_good t v0 Hd Hf) as (H1 & H2 & H3).
  destruct (round_trip0 fs os v v0 Hd Hw Hz H1 H2 H3 cap b c n b' Hr E) as (bytes & Ec & H).
  exists bytes. split; [exact Ec|]. intros S R rel ok s Hs fuel Hfu.
  destruct (H S R rel ok s Hs fuel Hfu) as (v' & s' & E' & Hv & _). exists v', s'.
  split; [exact E'|]. split; [exact Hv|]. intros Hn. etransitivity; [exact Hv|]. now apply norm_id.
Qed.

Lemma no_plain_float_ok t : forall v, no_plain_float t -> wt t v -> no_neg_zero t (view t v).
Proof.
  induction t as [sc|st max|fs os Hf Ho] using ety_ind'; intros v Hp Hw; [exact I|exact I|].
  destruct v as [| | | |pres xs ovs]; try contradiction. rewrite view_tab.
  cbn [wt] in Hw. destruct Hw as (_ & _ & Hw1 & Hw2). cbn [no_plain_float] in Hp. destruct Hp as [Hp1 Hp2]. cbn [no_neg_zero]. split.
  - clear Hp2 Hw2 Ho ovs. revert xs Hw1 Hp1. generalize 0 as i.
    induction Hf as [|[[num k] t] fs Ht Hf IH]; intros i xs Hw Hp; destruct xs as [|x xs]; cbn [all2] in Hw; try contradiction; [exact I|].
    destruct Hw as [Hwx Hw]. cbn [vtab map view_fields all2 all] in *. destruct Hp as [Hpx Hp]. cbn [snd] in Ht.
    split; [|apply IH; assumption].
    destruct k as [| |max|]; cbn [view_field no_neg_zero_field wt_field] in *.
    + destruct t as [sc|st max|fs' os'].
      * destruct x as [z| | | |]; try contradiction. cbn [view]. destruct sc; try contradiction; cbn [is_zero]; lia.
      * destruct x; try contradiction. exact I.
      * specialize (Ht x Hpx Hwx). destruct x; try contradiction. exact Ht.
    + destruct (present pres i); [|exact I]. apply Ht; auto.
    + destruct x as [| | |len data|]; try contradiction. destruct Hwx as (_ & _ & Hwd). apply all_Forall in Hwd.
      apply (Forall_firstn _ (Z.to_nat len)) in Hwd. apply all_Forall. apply Forall_map.
      eapply Forall_impl; [|exact Hwd]. intros y Hy. apply Ht; auto.
    + exact I.
  - clear Hp1 Hw1 Hf xs. revert ovs Hw2 Hp2.
    induction os as [|ms os IH]; intros ovs Hw Hp; destruct ovs as [|o ovs]; cbn [all2] in Hw; try contradiction; [exact I|].
    destruct Hw as [Hwo Hw]. inversion Ho; subst. cbn [votab map view_oneofs all2 all] in *. destruct Hp as [Hpo Hp].
    split; [|apply IH; auto]. clear IH. unfold wt_oneof, view_oneof, no_neg_zero_oneof in *.
    rewrite (lookup_map wt) in Hwo. rewrite (lookup_map view).
    destruct (lookup ms (fst o)) as [t|] eqn:El; cbn [fst snd].
    + rewrite (lookup_map no_neg_zero), El. apply lookup_In in El. eapply Forall_forall in H1; [|exact El]. cbn [snd] in H1.
      apply H1; [|exact Hwo]. apply all_Forall in Hpo. eapply Forall_forall in Hpo; [|exact El]. exact Hpo.
    + destruct (lookup _ 0); exact I.
Qed.

Lemma neg_zero_partial fs os v v0 : let t := EMsg fs os in
  no_plain_float t -> desc_ok t -> wt t v -> zlen (enc t (view t v)) < 2 ^ 32 ->
  v0 = default_value t \/ (exists w, wt t w /\ clear t w = Done v0) ->
  forall cap b c n b', wfix_rel cap b c (Some n) ->
  serialize t v _ (wfix_ops cap) b = Done (NoErrors, b') ->
  exists bytes, wfix_content b' = wfix_content b ++ bytes /\
  forall S (R : rops S) rel, reader_ok R rel -> forall s, rel s bytes ->
  forall fuel, (length bytes < fuel)%nat ->
  exists v' s', deserialize fuel t S R v0 s = Done (NoErrors, v', s') /\ view t v' = view t v.
Proof.
  intros t Hp Hd Hw Hz Hf cap b c n b' Hr E.
  destruct (round_trip fs os v v0 Hd Hw Hz Hf cap b c n b' Hr E) as (bytes & Ec & H).
  exists bytes. split; [exact Ec|]. intros S R rel ok s Hs fuel Hfu.
  destruct (H S R rel ok s Hs fuel Hfu) as (v' & s' & E' & _ & Hv). exists v', s'.
  split; [exact E'|]. apply Hv. now apply no_plain_float_ok.
Qed.

(** C21 *)
Definition float_msg : ety := EMsg [(1, KPlain, EScalar FloatFixed)] [].

Lemma neg_zero_refuted : exists fs os v b v' s',
  let t := EMsg fs os in
  desc_ok t /\ wt t v /\ view t v = SvM [SvZ (2 ^ 31)] []
  /\ serialize t v _ (wfix_ops 10) (wfix_init 10) = Done (NoErrors, b)
  /\ deserialize 11 t _ (rfix_ops 10) (default_value t) (rfix_of (wfix_content b)) = Done (NoErrors, v', s')
  /\ view t v' = SvM [SvZ 0] [].
Proof.
  exists [(1, KPlain, EScalar FloatFixed)], [], (VM [] [VS (2 ^ 31)] []). do 3 eexists. cbn zeta.
  split; [cbn; repeat split; try lia; repeat constructor; cbn; tauto|].
  split; [cbn; repeat split; lia|]. split; [reflexivity|].
  split; [vm_compute; reflexivity|]. split; [vm_compute; reflexivity|reflexivity].
Qed.

(** C23 *)
Lemma decode_concat fs os v a b mid new : let t := EMsg fs os in
  desc_ok t -> wt t v -> clean t v -> mdec fs os (view t v) a mid -> mdec fs os mid b new ->
  forall S (R : rops S) rel, reader_ok R rel -> forall sa sb sab, rel sa a -> rel sb b -> rel sab (a ++ b) ->
  forall fuel, (length (a ++ b) < fuel)%nat ->
  exists v1 s1 v2 s2 v3 s3,
    deserialize fuel t S R v sa = Done (NoErrors, v1, s1)
    /\ deserialize fuel t S R v1 sb = Done (NoErrors, v2, s2)
    /\ deserialize fuel t S R v sab = Done (NoErrors, v3, s3)
    /\ view t v3 = view t v2.
Proof.
  intros t Hd Hw Hc Ha Hb S R rel ok sa sb sab Hsa Hsb Hsab fuel Hf.
  assert (Hla : (length a < fuel)%nat /\ (length b < fuel)%nat) by (rewrite app_length in Hf; lia).
  destruct (decode_merge fs os v a mid Hd Hw Hc Ha S R rel ok sa Hsa fuel) as (v1 & s1 & E1 & _ & Hv1 & Hw1 & Hc1); [tauto|].
  rewrite <- Hv1 in Hb.
  destruct (decode_merge fs os v1 b new Hd Hw1 Hc1 Hb S R rel ok sb Hsb fuel) as (v2 & s2 & E2 & _ & Hv2 & _); [tauto|].
  rewrite Hv1 in Hb. pose proof (mdec_app true _ _ _ _ _ _ _ Ha Hb) as Hab.
  destruct (decode_merge fs os v _ new Hd Hw Hc Hab S R rel ok sab Hsab fuel Hf) as (v3 & s3 & E3 & _ & Hv3 & _).
  exists v1, s1, v2, s2, v3, s3. repeat split; auto. unfold t in *. congruence.
Qed.

(** C24 *)
Lemma unknown_mdec fs os us : unknown_records fs os us -> forall vs ovs, mdec fs os (SvM vs ovs) us (SvM vs ovs).
Proof.
  induction 1 as [|num w tg bs us Hn H0 Ht Hs Hu IH]; intros vs ovs; [constructor|].
  econstructor; [|apply IH]. eapply rdec_unknown; eauto.
Qed.

Lemma rdec_shape fs os v0 r v1 : rdec fs os v0 r v1 -> exists vs ovs, v0 = SvM vs ovs.
Proof. intros H. inversion H; subst; eauto. Qed.

Lemma padded_mdec fs os v0 bs v1 bs' : padded fs os v0 bs v1 bs' -> mdec fs os v0 bs v1 /\ mdec fs os v0 bs' v1.
Proof.
  induction 1 as [vs ovs us Hu|v0 r v1 bs v2 us bs' Hu Hr Hp [IH1 IH2]].
  - split; [constructor|now apply unknown_mdec].
  - split; [econstructor; eauto|]. destruct (rdec_shape _ _ _ _ _ Hr) as (vs & ovs & ->).
    eapply mdec_app; [apply unknown_mdec; exact Hu|]. econstructor; eauto.
Qed.

Lemma unknown_skipped fs os v bs new bs' : let t := EMsg fs os in
  desc_ok t -> wt t v -> clean t v -> padded fs os (view t v) bs new bs' ->
  forall S (R : rops S) rel, reader_ok R rel -> forall s s', rel s bs -> rel s' bs' ->
  forall fuel, (length bs < fuel)%nat -> (length bs' < fuel)%nat ->
  exists v1 s1 v2 s2, deserialize fuel t S R v s = Done (NoErrors, v1, s1)
    /\ deserialize fuel t S R v s' = Done (NoErrors, v2, s2) /\ view t v1 = view t v2.
Proof.
  intros t Hd Hw Hc Hp S R rel ok s s' Hs Hs' fuel Hf Hf'. destruct (padded_mdec _ _ _ _ _ _ Hp) as [H1 H2].
  destruct (decode_merge fs os v bs new Hd Hw Hc H1 S R rel ok s Hs fuel Hf) as (v1 & s1 & E1 & _ & Hv1 & _).
  destruct (decode_merge fs os v bs' new Hd Hw Hc H2 S R rel ok s' Hs' fuel Hf') as (v2 & s2 & E2 & _ & Hv2 & _).
  exists v1, s1, v2, s2. repeat split; auto. unfold t in *. congruence.
Qed.

(** C47 *)
Lemma reencode_stable fs os v0 bs new : let t := EMsg fs os in
  desc_ok t -> wt t v0 -> clean t v0 -> mdec fs os (view t v0) bs new -> zlen (enc t new) < 2 ^ 32 ->
  forall S (R : rops S) rel, reader_ok R rel -> forall s, rel s bs -> forall fuel, (length bs < fuel)%nat ->
  exists v1 s1, deserialize fuel t S R v0 s = Done (NoErrors, v1, s1)
  /\ forall cap b b', wfix_rel cap b [] (Some cap) -> serialize t v1 _ (wfix_ops cap) b = Done (NoErrors, b') ->
     forall s2, rel s2 (wfix_content b') -> forall fuel', (length (wfix_content b') < fuel')%nat ->
     exists v2 s3, deserialize fuel' t S R (default_value t) s2 = Done (NoErrors, v2, s3)
       /\ view t v2 = norm t (view t v1) /\ (no_neg_zero t (view t v1) -> view t v2 = view t v1).
Proof.
  intros t Hd Hw0 Hc0 Hm Hz S R rel ok s Hs fuel Hf.
  destruct (decode_merge fs os v0 bs new Hd Hw0 Hc0 Hm S R rel ok s Hs fuel Hf) as (v1 & s1 & E1 & _ & Hv1 & Hw1 & Hc1).
  exists v1, s1. split; [exact E1|]. intros cap b b' Hb E s2 Hs2 fuel' Hf'. destruct (default_ok t Hd) as (Hdw & Hdc & Hdv).
  assert (Hz1 : zlen (enc t (view t v1)) < 2 ^ 32) by (unfold t; rewrite Hv1; exact Hz).
  destruct (round_trip0 fs os v1 (default_value t) Hd Hw1 Hz1 Hdw Hdc Hdv cap b [] cap b' Hb E) as (bytes & Ec & H).
  assert (Eb : wfix_content b = []).
  { destruct Hb as (_ & _ & _ & _ & Hb & _). unfold wfix_content. now rewrite <- Hb. }
  rewrite Eb in Ec. cbn [app] in Ec. rewrite Ec in *.
  destruct (H S R rel ok s2 Hs2 fuel' Hf') as (v2 & s3 & E2 & Hv2 & _).
  exists v2, s3. split; [exact E2|]. split; [exact Hv2|]. intros Hn. etransitivity; [exact Hv2|]. now apply norm_id.
Qed.

(** C40 *)
Lemma enc_fields_default fs : Forall (fun f : fdesc => enc (snd f) (sdefault (snd f)) = [] \/ exists sc, snd f = EScalar sc) fs ->
  enc_fields (etab fs) (map (fun '(_, k, t) => sdefault_field k (sdefault t)) fs) = [].
Proof.
  induction 1 as [|[[num k] t] fs Ht Hf IH]; [reflexivity|]. cbn [etab map enc_fields]. unfold etab in IH. rewrite IH, app_nil_r. cbn [snd] in Ht.
  destruct k as [| |max|]; cbn [sdefault_field enc_field]; try reflexivity; [|destruct t; reflexivity].
  destruct Ht as [Ht|[sc ->]].
  - destruct t as [sc|st max|fs' os']; [|rewrite Ht; reflexivity|rewrite Ht; reflexivity]. cbn [sdefault]. destruct sc; reflexivity.
  - destruct sc; reflexivity.
Qed.

Lemma enc_default t : enc t (sdefault t) = [] \/ exists sc, t = EScalar sc.
Proof.
  induction t as [sc|st max|fs os Hf Ho] using ety_ind'; [right; eauto|left; reflexivity|left].
  cbn [enc sdefault]. fold (etab fs). rewrite enc_fields_default by exact Hf. cbn [app].
  clear. induction os as [|ms os IH]; [reflexivity|]. cbn [map enc_oneofs]. rewrite IH, app_nil_r.
  unfold enc_oneof. cbn [fst snd]. destruct (lookup _ 0) as [[]|]; reflexivity.
Qed.

Lemma clear_default fs os v : let t := EMsg fs os in
  desc_ok t -> wt t v ->
  exists v', clear t v = Done v' /\ view t v' = sdefault t /\ wt t v' /\ clean t v'
  /\ serialized_size (serialize t v') = Done 0
  /\ forall S (W : wops S) rel exact, writer_ok W rel exact -> forall s c room, rel s c room ->
     exists s', serialize t v' S W s = Done (NoErrors, s') /\ rel s' c room.
Proof.
  intros t Hd Hw. destruct (clear_good t v Hw Hd) as (v' & E & Hw' & Hc' & Hv'). exists v'.
  assert (He : enc t (view t v') = []). { rewrite Hv'. destruct (enc_default t) as [H|[sc H]]; [exact H|discriminate]. }
  assert (Hz : zlen (enc t (view t v')) < 2 ^ 32) by (rewrite He; reflexivity).
  do 4 (split; [assumption|]). split.
  { pose proof (serialized_size_enc t v' Hw' Hd Hz) as Hs. rewrite He in Hs. exact Hs. }
  intros S W rel exact ok s c room Hr.
  destruct (serialize_wrote t v' Hw' Hd Hz S W rel exact ok s c room Hr) as (e & s1 & E1 & H); [right; exact I|].
  rewrite He in H. destruct H as [(-> & H & _)|(_ & n & pre & suf & _ & Hps & Hs & _)].
  - exists s1. split; [exact E1|]. rewrite app_nil_r in H. destruct room as [n|]; cbn [option_map] in H; [|exact H].
    replace (n - zlen []) with n in H by (cbn; lia). exact H.
  - symmetry in Hps. apply app_eq_nil in Hps. destruct Hps; congruence.
Qed.
