(** Receiving a message twice, in any class: the parts without lists (C85). *)
From Verif Require Import Base Buffers Wire Schema Fields Message Spec SpecFieldOrder Contracts BitLemmas
  ReadProofs ScalarProofs BufferProofs Struct SerProofs Tables DecodeProofs RoundTrip DecodeProps FieldOrderProofs SpecRead ReadAny ReadTotal SpecTwice TwiceProofs.
From Verif Require VersionProofs.
From Coq Require Import ZifyBool ZifyNat ZifyN.
Ltac Zify.zify_post_hook ::= Z.div_mod_to_equations.

(** What the bytes say about an object is determined. *)
Lemma mdec_once fs os v bs a b : let m := EMsg fs os in desc_ok m -> wt m v -> clean m v ->
  mdec fs os (view m v) bs a -> mdec fs os (view m v) bs b -> a = b.
Proof.
  intros m Hd Hw Hc Ha Hb. assert (Hby : Forall is_byte bs) by exact (proj1 (proj2 VersionProofs.dec_bytes) _ _ _ _ _ Ha).
  destruct (decode_merge fs os v bs a Hd Hw Hc Ha _ lops lrel lops_ok bs (conj eq_refl Hby) (S (length bs)) ltac:(lia)) as (v1 & s1 & E1 & _ & V1 & _).
  destruct (decode_merge fs os v bs b Hd Hw Hc Hb _ lops lrel lops_ok bs (conj eq_refl Hby) (S (length bs)) ltac:(lia)) as (v2 & s2 & E2 & _ & V2 & _).
  rewrite E1 in E2. injection E2 as <- _. congruence.
Qed.

Lemma upd_same_nth {A} : forall (l : list A) i x y, nth_error l i = Some y -> nth_error (upd i x l) i = Some x.
Proof. induction l as [|z l IH]; intros [|i] x y H; try discriminate; cbn in *; auto. eapply IH; eauto. Qed.
Lemma upd_other_nth {A} : forall (l : list A) i j x, i <> j -> nth_error (upd i x l) j = nth_error l j.
Proof. induction l as [|z l IH]; intros [|i] [|j] x H; cbn; auto; now destruct H. Qed.

Section Parts.
Context (fs : list fdesc) (os : list odesc) (v v1 : value) (bs : list Z) (new new2 : sval).
Notation m := (EMsg fs os).
Context (Hd : desc_ok m) (Hw : wt m v) (Hc : clean m v) (Hm : mdec fs os (view m v) bs new).
Context (Hw1 : wt m v1) (Hc1 : clean m v1) (Hv1 : view m v1 = new) (Hm2 : mdec fs os new bs new2).

Lemma parts : exists rs vs ovs vs1 ovs1 vs2 ovs2, view m v = SvM vs ovs /\ new = SvM vs1 ovs1 /\ new2 = SvM vs2 ovs2
  /\ length vs = length fs /\ length ovs = length os /\ length vs1 = length fs /\ length ovs1 = length os /\ length vs2 = length fs /\ length ovs2 = length os
  /\ (forall i n k t x y z, nth_error fs i = Some (n, k, t) -> nth_error vs i = Some x -> nth_error vs1 i = Some y -> nth_error vs2 i = Some z ->
        fchain n k t rs x y /\ fchain n k t rs y z
        /\ (forall y', fchain n k t rs x y' -> y' = y) /\ (forall z', fchain n k t rs y z' -> z' = z))
  /\ (forall j ms x y z, nth_error os j = Some ms -> nth_error ovs j = Some x -> nth_error ovs1 j = Some y -> nth_error ovs2 j = Some z ->
        ochain ms rs x y /\ ochain ms rs y z /\ (forall z', ochain ms rs y z' -> z' = z)).
Proof.
  destruct (mdec_split _ _ _ _ _ Hm) as (rs & Eb & Hn & Hr).
  destruct (view_msg fs os v Hw) as (vs & ovs & Ev). destruct (view_msg fs os v1 Hw1) as (vs1 & ovs1 & Ev1). rewrite Hv1 in Ev1. rewrite Ev, Ev1 in Hr.
  destruct (project fs os Hd rs _ _ _ _ Hn Hr) as (Hruns & L1 & L2 & Hfs & Hos).
  assert (Hone : Forall (one_record fs os) rs).
  { clear - Hn Hr. revert vs ovs Hn Hr. generalize (SvM vs1 ovs1). induction rs as [|[n r] rs' IH]; intros b vs ovs Hn Hr; [constructor|]. cbn [map snd] in Hr.
    inversion Hn as [|? ? Hn1 Hn2]; subst. inversion Hr as [|? ? v' ? ? Hr1 Hr2]; subst. constructor; [split; [exact Hn1|eauto]|].
    inversion Hr1; subst; eapply IH; eassumption. }
  pose proof Hm2 as Hr2. rewrite <- Eb, Ev1 in Hr2. apply (mdec_records _ _ _ Hone) in Hr2.
  assert (exists vs2 ovs2, new2 = SvM vs2 ovs2) as (vs2 & ovs2 & En2).
  { clear - Hr2. remember (SvM vs1 ovs1) as a eqn:E. revert vs1 ovs1 E. induction Hr2 as [|w r w' rs' w'' H Hr IH]; intros ws ows E; subst; [eauto|]. inversion H; subst; eapply IH; reflexivity. }
  rewrite En2 in Hr2. destruct (project fs os Hd rs _ _ _ _ Hn Hr2) as (_ & L3 & L4 & Hfs2 & Hos2).
  pose proof (shape_view m v Hw) as Hs. rewrite Ev in Hs. destruct (shape_msg _ _ _ _ Hs) as (L5 & L6 & _ & _).
  exists rs, vs, ovs, vs1, ovs1, vs2, ovs2. split; [exact Ev|]. split; [exact Ev1|]. split; [exact En2|]. do 6 (split; [congruence|]). split.
  - intros i n k t x y z Hi Hx Hy Hz. destruct (Hfs i n k t x Hi Hx) as (y0 & Hy0 & Hch). rewrite Hy in Hy0. injection Hy0 as <-.
    destruct (Hfs2 i n k t y Hi Hy) as (z0 & Hz0 & Hch2). rewrite Hz in Hz0. injection Hz0 as <-. split; [exact Hch|]. split; [exact Hch2|]. split.
    + intros y' Hy'. assert (E : SvM (upd i y' vs1) ovs1 = new).
      { eapply (mdec_once fs os v bs); [exact Hd|exact Hw|exact Hc| |exact Hm]. rewrite Ev, <- Eb. apply records_mdec; [|eauto].
        apply assemble; [exact Hd|exact Hruns|congruence|congruence|rewrite length_upd; congruence|congruence| |].
        - intros i' n' k' t' x' Hi' Hx'. destruct (Nat.eq_dec i i') as [<-|Hne].
          + rewrite Hi in Hi'. injection Hi' as <- <- <-. rewrite Hx in Hx'. injection Hx' as <-. exists y'. split; [eapply upd_same_nth; exact Hy|exact Hy'].
          + rewrite upd_other_nth by congruence. eapply Hfs; eassumption.
        - exact Hos. }
      rewrite Ev1 in E. injection E as E. pose proof (upd_same_nth vs1 i y' y Hy) as E'. rewrite E in E'. congruence.
    + intros z' Hz'. assert (E : SvM (upd i z' vs2) ovs2 = new2).
      { eapply (mdec_once fs os v1 bs); [exact Hd|exact Hw1|exact Hc1| |rewrite Hv1; exact Hm2]. rewrite Hv1, Ev1, <- Eb. apply records_mdec; [|eauto].
        apply assemble; [exact Hd|exact Hruns|congruence|congruence|rewrite length_upd; congruence|congruence| |].
        - intros i' n' k' t' x' Hi' Hx'. destruct (Nat.eq_dec i i') as [<-|Hne].
          + rewrite Hi in Hi'. injection Hi' as <- <- <-. rewrite Hy in Hx'. injection Hx' as <-. exists z'. split; [eapply upd_same_nth; exact Hz|exact Hz'].
          + rewrite upd_other_nth by congruence. eapply Hfs2; eassumption.
        - exact Hos2. }
      rewrite En2 in E. injection E as E. pose proof (upd_same_nth vs2 i z' z Hz) as E'. rewrite E in E'. congruence.
  - intros j ms x y z Hj Hx Hy Hz. destruct (Hos j ms x Hj Hx) as (y0 & Hy0 & Hch). rewrite Hy in Hy0. injection Hy0 as <-.
    destruct (Hos2 j ms y Hj Hy) as (z0 & Hz0 & Hch2). rewrite Hz in Hz0. injection Hz0 as <-. split; [exact Hch|]. split; [exact Hch2|].
    intros z' Hz'. assert (E : SvM vs2 (upd j z' ovs2) = new2).
    { eapply (mdec_once fs os v1 bs); [exact Hd|exact Hw1|exact Hc1| |rewrite Hv1; exact Hm2]. rewrite Hv1, Ev1, <- Eb. apply records_mdec; [|eauto].
      apply assemble; [exact Hd|exact Hruns|congruence|congruence|congruence|rewrite length_upd; congruence|exact Hfs2|].
      intros j' ms' x' Hj' Hx'. destruct (Nat.eq_dec j j') as [<-|Hne].
      - rewrite Hj in Hj'. injection Hj' as <-. rewrite Hy in Hx'. injection Hx' as <-. exists z'. split; [eapply upd_same_nth; exact Hz|exact Hz'].
      - rewrite upd_other_nth by congruence. eapply Hos2; eassumption. }
    rewrite En2 in E. injection E as E. pose proof (upd_same_nth ovs2 j z' z Hz) as E'. rewrite E in E'. congruence.
Qed.
End Parts.

Theorem twice_parts fs os v bs new new2 : let m := EMsg fs os in
  desc_ok m -> wt m v -> clean m v -> mdec fs os (view m v) bs new -> mdec fs os new bs new2 ->
  forall S (R : rops S) rel, reader_ok R rel -> forall s, rel s bs ->
  forall S' (R' : rops S') rel', reader_ok R' rel' -> forall s', rel' s' bs ->
  forall fuel, (length bs < fuel)%nat ->
  exists v1 s1 v2 s2, deserialize fuel m S R v s = Done (NoErrors, v1, s1) /\ deserialize fuel m S' R' v1 s' = Done (NoErrors, v2, s2)
  /\ exists vs ovs vs1 ovs1 vs2 ovs2, view m v = SvM vs ovs /\ view m v1 = SvM vs1 ovs1 /\ view m v2 = SvM vs2 ovs2
  /\ (forall i num k t, nth_error fs i = Some (num, k, t) -> (forall max, k <> KRep max) -> list_free t -> nth_error vs2 i = nth_error vs1 i)
  /\ (forall i num max t, nth_error fs i = Some (num, KRep max, t) ->
        exists l d, nth_error vs i = Some (SvR l) /\ nth_error vs1 i = Some (SvR (l ++ d)) /\ nth_error vs2 i = Some (SvR (l ++ d ++ d)))
  /\ (forall j ms, nth_error os j = Some ms -> (forall num t, lookup ms num = Some t -> list_free t) -> nth_error ovs2 j = nth_error ovs1 j).
Proof.
  intros m Hd Hw Hc Hm Hm2 S R rel ok s Hr S' R' rel' ok' s' Hr' fuel Hf.
  destruct (decode_merge fs os v bs new Hd Hw Hc Hm S R rel ok s Hr fuel Hf) as (v1 & s1 & E1 & _ & V1 & W1 & C1).
  pose proof Hm2 as Hm2'. rewrite <- V1 in Hm2'.
  destruct (decode_merge fs os v1 bs _ Hd W1 C1 Hm2' S' R' rel' ok' s' Hr' fuel Hf) as (v2 & s2 & E2 & _ & V2 & _).
  exists v1, s1, v2, s2. split; [exact E1|]. split; [exact E2|].
  destruct (parts fs os v v1 bs new new2 Hd Hw Hc Hm W1 C1 V1 Hm2) as (rs & vs & ovs & vs1 & ovs1 & vs2 & ovs2 & Ev & En & En2 & L0 & M0 & L1 & M1 & L2 & M2 & Hfs & Hos).
  exists vs, ovs, vs1, ovs1, vs2, ovs2. subst m. rewrite Ev, V1, V2. split; [reflexivity|]. split; [exact En|]. split; [exact En2|].
  pose proof (shape_view (EMsg fs os) v Hw) as Hs. rewrite Ev in Hs. destruct (shape_msg _ _ _ _ Hs) as (_ & _ & Sf & So).
  assert (Hat : forall {A} (l : list A) i n (l0 : list n) x, nth_error l0 i = Some x -> length l = length l0 -> exists y, nth_error l i = Some y).
  { intros A l i B l0 x Hi Hl. destruct (nth_error l i) as [y|] eqn:E; [eauto|]. apply nth_error_None in E. assert (Hne : nth_error l0 i <> None) by congruence. apply nth_error_Some in Hne. lia. }
  split; [|split].
  - intros i num k t Hi Hk Hl. destruct (Hat _ vs i _ _ _ Hi L0) as (x & Hx). destruct (Hat _ vs1 i _ _ _ Hi L1) as (y & Hy). destruct (Hat _ vs2 i _ _ _ Hi L2) as (z & Hz).
    destruct (Hfs i num k t x y z Hi Hx Hy Hz) as (H1 & _ & _ & H2). rewrite Hy, Hz. f_equal. symmetry. apply H2.
    destruct (desc_field _ _ _ _ _ _ Hd Hi) as (Hdt & _).
    apply (field_again num k t rs x y); auto; [now apply received_again|]. exact (Sf _ _ _ _ _ Hi Hx).
  - intros i num max t Hi. destruct (Hat _ vs i _ _ _ Hi L0) as (x & Hx). destruct (Hat _ vs1 i _ _ _ Hi L1) as (y & Hy). destruct (Hat _ vs2 i _ _ _ Hi L2) as (z & Hz).
    destruct (Hfs i num _ t x y z Hi Hx Hy Hz) as (H1 & H2 & H3 & _).
    destruct (view_lists_fit fs os v vs ovs Hw Ev _ _ _ _ _ Hi Hx) as (l & -> & Hzl).
    destruct (list_chain _ _ _ _ _ _ Hzl H1) as (d & -> & Hz1 & _).
    destruct (list_chain num max t rs (l ++ d) z ltac:(unfold zlen in *; rewrite app_length; lia) H2) as (d' & -> & Hz2 & Hall).
    assert (Ed : l ++ d' = l ++ d).
    { assert (Hsv : SvR (l ++ d') = SvR (l ++ d)); [|congruence]. apply H3, Hall. unfold zlen in *. rewrite app_length in Hz2. lia. }
    apply app_inv_head in Ed. subst d'. exists l, d. rewrite <- app_assoc in Hz. auto.
  - intros j ms Hj Hl. destruct (Hat _ ovs j _ _ _ Hj M0) as (x & Hx). destruct (Hat _ ovs1 j _ _ _ Hj M1) as (y & Hy). destruct (Hat _ ovs2 j _ _ _ Hj M2) as (z & Hz).
    destruct (Hos j ms x y z Hj Hx Hy Hz) as (H1 & _ & H2). rewrite Hy, Hz. f_equal. symmetry. apply H2.
    eapply oneof_again; [|exact (So _ _ _ Hj Hx)|exact H1]. intros n t El. destruct (desc_member _ _ _ _ _ _ Hd Hj El) as [Hdt _].
    split; [exact Hdt|]. split; [exact (Hl n t El)|]. apply received_again; [exact Hdt|exact (Hl n t El)].
Qed.
