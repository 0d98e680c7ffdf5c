(** An invariant of every reachable object: an absent optional field holds its default value, at all
    depths. Decoding keeps it, whatever the input and the buffer. *)
From Verif Require Import Base Buffers Wire Schema Fields Message Api Spec Contracts BitLemmas
  ScalarProofs BufferProofs Struct SerProofs Tables DecodeProofs ClearProofs.
From Coq Require Import ZifyBool ZifyNat ZifyN.
Ltac Zify.zify_post_hook ::= Z.div_mod_to_equations.

Inductive tidy : ety -> value -> Prop :=
| tidy_scalar sc v : tidy (EScalar sc) v
| tidy_bytes st max v : tidy (EBytes st max) v
| tidy_msg fs os pres vs ovs :
    (forall pos num t x, nth_error fs pos = Some (num, KPlain, t) -> nth_error vs pos = Some x -> tidy t x) ->
    (forall pos num t x, nth_error fs pos = Some (num, KOpt, t) -> nth_error vs pos = Some x -> tidy t x) ->
    (forall pos num t x, nth_error fs pos = Some (num, KOpt, t) -> nth_error vs pos = Some x ->
       present pres (optix fs pos) = false -> view t x = sdefault t) ->
    (forall pos num max t len data x, nth_error fs pos = Some (num, KRep max, t) ->
       nth_error vs pos = Some (VR len data) -> In x data -> tidy t x) ->
    (forall pos ms id t x, nth_error os pos = Some ms -> nth_error ovs pos = Some (id, x) ->
       lookup ms id = Some t -> tidy t x) ->
    tidy (EMsg fs os) (VM pres vs ovs).

Definition tidy_field (k : fkind) (t : ety) (i : Z) (pres : list Z) (v : value) : Prop :=
  match k with
  | KPlain => tidy t v
  | KOpt => tidy t v /\ (present pres i = false -> view t v = sdefault t)
  | KRep _ => match v with VR _ data => Forall (tidy t) data | _ => True end
  | KRecursive => True
  end.

Definition tidy_oneof (ms : odesc) (o : Z * value) : Prop :=
  forall t, lookup ms (fst o) = Some t -> tidy t (snd o).

Lemma tidy_msg_iff fs os pres vs ovs : tidy (EMsg fs os) (VM pres vs ovs) <->
  (forall pos num k t x, nth_error fs pos = Some (num, k, t) -> nth_error vs pos = Some x ->
     tidy_field k t (optix fs pos) pres x)
  /\ (forall pos ms o, nth_error os pos = Some ms -> nth_error ovs pos = Some o -> tidy_oneof ms o).
Proof.
  split.
  - intros H. inversion H as [| |? ? ? ? ? H1 H2 H3 H4 H5]; subst. split.
    + intros pos num k t x Hf Hx. destruct k; cbn [tidy_field]; eauto.
      destruct x as [| | |len data|]; auto. apply Forall_forall. intros x Hin. eauto.
    + intros pos ms [id x] Hm Ho t Hl. cbn [fst snd] in *. eauto.
  - intros [H1 H2]. constructor.
    + intros pos num t x Hf Hx. apply (H1 _ _ _ _ _ Hf Hx).
    + intros pos num t x Hf Hx. apply (H1 _ _ _ _ _ Hf Hx).
    + intros pos num t x Hf Hx. apply (H1 _ _ _ _ _ Hf Hx).
    + intros pos num max t len data x Hf Hx Hin. specialize (H1 _ _ _ _ _ Hf Hx). cbn [tidy_field] in H1.
      eapply Forall_forall in H1; eauto.
    + intros pos ms id t x Hm Ho Hl. apply (H2 _ _ _ Hm Ho t Hl).
Qed.

Lemma tidy_elem fs os pres vs ovs pos num k t x : tidy (EMsg fs os) (VM pres vs ovs) ->
  nth_error fs pos = Some (num, k, t) -> nth_error vs pos = Some x -> tidy_field k t (optix fs pos) pres x.
Proof. intros H. apply tidy_msg_iff in H. apply H. Qed.

Lemma tidy_field_mono k t i pres pres' x : (present pres' i = false -> present pres i = false) ->
  tidy_field k t i pres x -> tidy_field k t i pres' x.
Proof. destruct k; cbn [tidy_field]; auto. intros H [H1 H2]. auto. Qed.

(** Replacing one field. *)
Lemma tidy_upd_field fs os pres pres' vs ovs pos num k t x : tidy (EMsg fs os) (VM pres vs ovs) ->
  nth_error fs pos = Some (num, k, t) ->
  (forall q num' t', nth_error fs q = Some (num', KOpt, t') -> q <> pos ->
     present pres' (optix fs q) = false -> present pres (optix fs q) = false) ->
  tidy_field k t (optix fs pos) pres' x ->
  tidy (EMsg fs os) (VM pres' (upd pos x vs) ovs).
Proof.
  intros H Hf Hp Hx. apply tidy_msg_iff in H. destruct H as [H1 H2]. apply tidy_msg_iff. split; [|exact H2].
  intros q num' k' t' y Hq Hy. destruct (Nat.eq_dec q pos) as [->|Hne].
  - assert ((num', k', t') = (num, k, t)) as E by congruence. injection E as -> -> ->.
    rewrite nth_error_upd_same in Hy by (apply nth_error_lt in Hy; now rewrite length_upd in Hy). now injection Hy as ->.
  - rewrite nth_error_upd_other in Hy by auto. specialize (H1 _ _ _ _ _ Hq Hy).
    destruct k'; cbn [tidy_field] in *; auto. destruct H1 as [Ha Hb]. split; [exact Ha|]. intros E. apply Hb. eapply Hp; eauto.
Qed.

Lemma tidy_upd_oneof fs os pres vs ovs pos ms o : tidy (EMsg fs os) (VM pres vs ovs) ->
  nth_error os pos = Some ms -> tidy_oneof ms o -> tidy (EMsg fs os) (VM pres vs (upd pos o ovs)).
Proof.
  intros H Hf Hx. apply tidy_msg_iff in H. destruct H as [H1 H2]. apply tidy_msg_iff. split; [exact H1|].
  intros q ms' y Hq Hy. destruct (Nat.eq_dec q pos) as [->|Hne].
  - rewrite nth_error_upd_same in Hy by (apply nth_error_lt in Hy; now rewrite length_upd in Hy). injection Hy as <-. assert (ms' = ms) by congruence. subst ms'. exact Hx.
  - rewrite nth_error_upd_other in Hy by auto. eauto.
Qed.

(** Fresh and cleared objects. *)
Lemma view_oneofs_nth_fwd os : forall ovs j ms o, nth_error os j = Some ms -> nth_error ovs j = Some o ->
  nth_error (view_oneofs (votab os) ovs) j = Some (view_oneof (map (fun '(num, t) => (num, view t)) ms) o).
Proof.
  induction os as [|ms' os IH]; intros ovs [|j] ms o Hs Ho; cbn [nth_error] in Hs; try discriminate;
    destruct ovs as [|x ovs]; try discriminate; cbn [votab map view_oneofs nth_error] in *.
  - injection Hs as ->. injection Ho as <-. reflexivity.
  - eapply IH; eauto.
Qed.

Lemma fresh_tidy t : forall v, good t v (sdefault t) -> tidy t v.
Proof.
  induction t as [sc|st max|fs os Hf Ho] using ety_ind'; intros v (Hw & Hc & Hv); try constructor.
  destruct v as [| | | |pres vs ovs]; try contradiction. rewrite clean_tab in Hc. rewrite view_tab in Hv.
  cbn [sdefault] in Hv. destruct Hc as [Hc1 Hc2].
  assert (Hv1 : view_fields (vtab fs) 0 pres vs = map (fun '(_, k, t) => sdefault_field k (sdefault t)) fs) by congruence.
  assert (Hv2 : view_oneofs (votab os) ovs = map (fun _ => (0, SvNone)) os) by congruence. clear Hv.
  cbn [wt] in Hw. destruct Hw as (_ & _ & Hw1 & Hw2).
  apply tidy_msg_iff. split.
  - intros pos num k t x Hp Hx.
    pose proof (view_fields_nth_fwd fs pos 0 pres vs num k t x Hp Hx) as Hn. rewrite Hv1 in Hn.
    rewrite (map_nth_error (fun '(_, k, t) => sdefault_field k (sdefault t)) _ _ Hp) in Hn.
    assert (Hvx : sdefault_field k (sdefault t) = view_field k (view t) (0 + optix fs pos) pres x) by congruence. clear Hn.
    pose proof (clean_fields_nth fs pos 0 pres vs num k t x Hp Hx Hc1) as Hcx. rewrite Z.add_0_l in *.
    destruct (all2_nth _ _ _ _ _ Hw1 Hp) as (x' & Ex & Hwx). assert (x' = x) by congruence. subst x'.
    assert (Ht : forall v, good t v (sdefault t) -> tidy t v).
    { eapply Forall_forall in Hf; [|eapply nth_error_In; exact Hp]. exact Hf. }
    destruct k as [| |max|]; cbn [tidy_field clean_field view_field sdefault_field wt_field] in *.
    + apply Ht. split; [exact Hwx|]. split; [exact Hcx|congruence].
    + destruct (present pres (optix fs pos)); [discriminate|]. destruct Hcx as [Ha Hb]. specialize (Hb eq_refl).
      split; [|auto]. apply Ht. split; [exact Hwx|]. split; assumption.
    + destruct x as [| | |len data|]; auto. destruct Hwx as (Hl & Hz & Hall).
      destruct t as [sc|st mx|fs' os']; try (apply Forall_forall; constructor).
      assert (E : firstn (Z.to_nat len) data = []).
      { destruct (firstn (Z.to_nat len) data); [reflexivity|discriminate]. }
      assert (Hs : all (fun x => clean (EMsg fs' os') x /\ view (EMsg fs' os') x = sdefault (EMsg fs' os')) data).
      { rewrite <- (firstn_skipn (Z.to_nat len) data), E. exact Hcx. }
      apply Forall_forall. intros y Hy. apply all_Forall in Hs, Hall. eapply Forall_forall in Hs; [|exact Hy].
      eapply Forall_forall in Hall; [|exact Hy]. apply Ht. split; [exact Hall|exact Hs].
    + exact I.
  - intros pos ms [id x] Hp Hx t Hl. cbn [fst snd] in *.
    pose proof (view_oneofs_nth_fwd os ovs pos ms _ Hp Hx) as Hn. rewrite Hv2 in Hn.
    rewrite (map_nth_error (fun _ => (0, SvNone)) _ _ Hp) in Hn. unfold view_oneof in Hn. cbn [fst snd] in Hn.
    rewrite (lookup_map view), Hl in Hn. cbn [option_map] in Hn. congruence.
Qed.

Lemma default_tidy t : desc_ok t -> tidy t (default_value t).
Proof. intros H. apply fresh_tidy. apply default_ok. exact H. Qed.

(** presence_set only sets one bit. *)
Lemma presence_set_mono pres i pres' : presence_set pres i = Done pres' -> 0 <= i ->
  present pres' i = true /\ (forall j, 0 <= j -> j <> i -> present pres' j = present pres j).
Proof.
  unfold presence_set, presence_index. intros H Hi. destruct (aget pres (i / 32)) as [w| |] eqn:E; cbn [bind] in H; try discriminate.
  apply aget_Done in E. destruct E as [En Hr]. rewrite aset_ok in H by exact Hr. injection H as <-.
  assert (Hlt : (Z.to_nat (i / 32) < length pres)%nat) by (eapply nth_error_lt; exact En).
  rewrite presence_mask_spec. split.
  - unfold present. rewrite nth_upd by exact Hlt. rewrite Nat.eqb_refl. rewrite Z.lor_spec, Z.pow2_bits_true by lia. apply orb_true_r.
  - intros j Hj Hne. unfold present. rewrite nth_upd by exact Hlt.
    destruct (Nat.eqb_spec (Z.to_nat (i / 32)) (Z.to_nat (j / 32))) as [E|E]; [|reflexivity].
    rewrite <- E, (nth_of_nth_error _ _ _ _ En). rewrite Z.lor_spec, Z.pow2_bits_eqb by lia.
    destruct (Z.eqb_spec (i mod 32) (j mod 32)); [lia|]. apply orb_false_r.
Qed.

(** *** Decoding *)
Definition keeps_tidy (d : deserializer) (t : ety) : Prop :=
  forall S (R : rops S) v s e v' s', d S R v s = Done (e, v', s') -> tidy t v -> tidy t v'.

Ltac inv_bind H x := match type of H with bind ?m _ = Done _ => destruct m as [x| |] eqn:?; cbn [bind] in H; try discriminate H end.

Lemma section_tidy d t : keeps_tidy d t -> keeps_tidy (deserialize_section d) t.
Proof.
  intros Hd S R v s e v' s' H Ht. unfold deserialize_section in H. inv_bind H p. destruct p as [[e1 on] s1].
  destruct e1; try (injection H as <- <- <-; exact Ht). destruct on as [n|]; try (injection H as <- <- <-; exact Ht).
  inv_bind H q. destruct q as [[e2 v2] sec]. injection H as <- <- <-. eapply Hd; eauto.
Qed.

Lemma elem_check_tidy d t w : keeps_tidy d t -> keeps_tidy (elem_deserialize_check_type t d w) t.
Proof.
  intros Hd S R v s e v' s' H Ht. unfold elem_deserialize_check_type in H.
  destruct t as [sc|st max|fs os]; (destruct (wt_eqb _ w); [|injection H as <- <- <-; exact Ht]).
  - eapply Hd; eauto.
  - eapply Hd; eauto.
  - eapply section_tidy; eauto.
Qed.

Lemma rep_check_tidy fuel d t w max i pres S (R : rops S) v s e v' s' : keeps_tidy d t ->
  rep_deserialize_check_type fuel t d w S R v s = Done (e, v', s') ->
  tidy_field (KRep max) t i pres v -> tidy_field (KRep max) t i pres v'.
Proof.
  intros Hd H Ht. unfold rep_deserialize_check_type in H. destruct (wt_eqb LENDEL w); [|injection H as <- <- <-; exact Ht].
  assert (Htriv : forall sc, t = EScalar sc -> tidy_field (KRep max) t i pres v').
  { intros sc ->. cbn [tidy_field]. destruct v'; auto. apply Forall_forall. intros; constructor. }
  destruct t as [sc|st mx|fs os]; [eapply Htriv; reflexivity|..]; clear Htriv; destruct v as [| | |len data|]; try discriminate H;
    cbn [rep_deserialize_unpacked] in H; cbn [tidy_field] in *.
  - destruct (len <? zlen data); [|injection H as <- <- <-; exact Ht].
    destruct v'; auto. apply Forall_forall; constructor.
  - destruct (len <? zlen data); [|injection H as <- <- <-; exact Ht]. destruct (rep_get len data len) as [ix len'].
    inv_bind H x. apply aget_Done in Heqr. destruct Heqr as [Hx _].
    assert (Htx : tidy (EMsg fs os) x). { eapply Forall_forall in Ht; [exact Ht|]. eapply nth_error_In; exact Hx. }
    inv_bind H p. destruct p as [[e1 on] s1].
    destruct e1; try (injection H as <- <- <-; exact Ht). destruct on as [n|]; try (injection H as <- <- <-; exact Ht).
    inv_bind H q. destruct q as [[e2 x2] sec]. unfold aset in H. destruct ((0 <=? ix) && (ix <? zlen data)); cbn [bind] in H; try discriminate.
    injection H as <- <- <-. apply Forall_upd; [exact Ht|]. eapply Hd; eauto.
Qed.

Lemma field_tidy fuel num k t d oi w pres v S (R : rops S) s e pres' v' s' : keeps_tidy d t -> 0 <= oi ->
  field_deserialize fuel (num, k, t, d) oi w pres v R s = Done (e, pres', v', s') ->
  tidy_field k t oi pres v ->
  tidy_field k t oi pres' v' /\ (forall j, 0 <= j -> j <> oi -> present pres' j = present pres j)
  /\ (k <> KOpt -> pres' = pres) /\ (k = KOpt -> present pres' oi = true).
Proof.
  intros Hd Hoi H Ht. cbn [field_deserialize] in H. destruct k as [| |max|].
  - inv_bind H p. destruct p as [[e1 v1] s1]. injection H as <- <- <- <-. split; [|auto using eq_refl].
    + cbn [tidy_field] in *. eapply elem_check_tidy; eauto.
    + split; [auto|]. split; [auto|discriminate].
  - inv_bind H pr. destruct (presence_set_mono _ _ _ Heqr Hoi) as [Ha Hb].
    inv_bind H p. destruct p as [[e1 v1] s1]. injection H as <- <- <- <-. cbn [tidy_field] in *. destruct Ht as [Ht1 Ht2]. split.
    + split; [eapply elem_check_tidy; eauto|]. intros E. congruence.
    + split; [exact Hb|]. split; [congruence|auto].
  - inv_bind H p. destruct p as [[e1 v1] s1]. injection H as <- <- <- <-. split.
    + eapply rep_check_tidy; eauto.
    + split; [auto|]. split; [auto|discriminate].
  - injection H as <- <- <- <-. split; [exact Ht|]. split; [auto|]. split; [auto|discriminate].
Qed.

Lemma placement_tidy t : desc_ok t -> tidy t (placement_new t).
Proof. intros H. destruct t; cbn [placement_new]; [constructor|constructor|]. apply default_tidy. exact H. Qed.

Lemma oneof_init_tidy {X} (ms : odesc) (f : ety -> X) id o : (forall num t, lookup ms num = Some t -> desc_ok t) ->
  tidy_oneof ms (oneof_init (map (fun '(n, t) => (n, t, f t)) ms) id o).
Proof.
  intros Hd t Hl. unfold oneof_init in *. rewrite find_member_map in *. destruct (lookup ms id) as [t'|] eqn:E; cbn [fst snd] in *.
  - assert (t' = t) by congruence. subst. destruct (is_enum t) eqn:Ee.
    + destruct t; try discriminate Ee. constructor.
    + apply placement_tidy. eauto.
  - congruence.
Qed.

Lemma oneof_clear_tidy {X} (ms : odesc) (f : ety -> X) o : lookup ms 0 = None ->
  tidy_oneof ms (oneof_clear (map (fun '(n, t) => (n, t, f t)) ms) o).
Proof.
  intros H0 t Hl. unfold oneof_clear in *. destruct (find_member _ (fst o)) as [[t' d]|]; cbn [fst] in Hl; congruence.
Qed.

Lemma oneof_tidy fuel ms id w o S (R : rops S) s e o' s' :
  (forall num t, lookup ms num = Some t -> desc_ok t /\ keeps_tidy (deserialize fuel t) t) -> lookup ms 0 = None ->
  oneof_deserialize (map (fun '(n, t) => (n, t, deserialize fuel t)) ms) id w o R s = Done (e, o', s') ->
  tidy_oneof ms o -> tidy_oneof ms o'.
Proof.
  intros Hms H0 H Ht. unfold oneof_deserialize in H.
  set (o1 := if id =? fst o then o else oneof_init (map (fun '(n, t) => (n, t, deserialize fuel t)) ms) id o) in H.
  assert (H1 : tidy_oneof ms o1).
  { unfold o1. destruct (id =? fst o); [exact Ht|]. apply oneof_init_tidy. intros num t Hl. apply (Hms _ _ Hl). }
  clearbody o1. inv_bind H p. destruct p as [[e2 o2] s2]. injection H as <- <- <-.
  destruct (is_ok e2); [|apply oneof_clear_tidy; exact H0].
  rewrite find_member_map in Heqr. destruct (lookup ms (fst o1)) as [t|] eqn:El; cbn [option_map] in Heqr.
  - inv_bind Heqr q. destruct q as [[e3 v3] s3]. injection Heqr as <- <- <-. intros t' Hl. cbn [fst snd] in *.
    assert (t' = t) by congruence. subst t'. eapply elem_check_tidy; [apply (Hms _ _ El)|eauto|apply H1; exact El].
  - injection Heqr as <- <- <-. exact H1.
Qed.

Lemma desc_lookup0 fs os pos ms : desc_ok (EMsg fs os) -> nth_error os pos = Some ms -> lookup ms 0 = None.
Proof.
  intros Hd Hp. destruct (lookup ms 0) as [t|] eqn:E; [|reflexivity]. destruct (desc_member fs os pos ms 0 t Hd Hp E). lia.
Qed.

Lemma aset_Done {A} (l : list A) i x l' : aset l i x = Done l' -> l' = upd (Z.to_nat i) x l /\ 0 <= i < zlen l.
Proof. unfold aset. destruct ((0 <=? i) && (i <? zlen l)) eqn:E; [|discriminate]. intros [= <-]. split; [reflexivity|lia]. Qed.

Lemma dispatch_tidy fuel fs os id w S (R : rops S) v s e v' s' : desc_ok (EMsg fs os) ->
  Forall (fun f : fdesc => desc_ok (snd f) -> keeps_tidy (deserialize fuel (snd f)) (snd f)) fs ->
  Forall (Forall (fun p : Z * ety => desc_ok (snd p) -> keeps_tidy (deserialize fuel (snd p)) (snd p))) os ->
  msg_dispatch fuel (dtab fuel fs) (dotab fuel os) id w R v s = Done (e, v', s') ->
  tidy (EMsg fs os) v -> tidy (EMsg fs os) v'.
Proof.
  intros Hok Hf Ho H Ht. destruct v as [| | | |pres vs ovs]; try discriminate H. cbn [msg_dispatch] in H.
  destruct (find_field (dtab fuel fs) 0 0 id) as [[[p oi] f]|] eqn:Ef.
  - apply find_field_inv in Ef. destruct Ef as (i & k & t & Ep & Eo & En & ->). cbn [Nat.add] in Ep. subst p. rewrite Z.add_0_l in Eo. subst oi.
    destruct (desc_field fs os i id k t Hok En) as (Hdt & _ & _).
    inv_bind H x. apply aget_Done in Heqr. destruct Heqr as [Hx _]. rewrite Nat2Z.id in Hx.
    inv_bind H q. destruct q as [[[e1 pres1] x1] s1]. inv_bind H vs1. injection H as <- <- <-.
    apply aset_Done in Heqr0. destruct Heqr0 as [-> _]. rewrite Nat2Z.id.
    assert (Hk : keeps_tidy (deserialize fuel t) t).
    { eapply Forall_forall in Hf; [|eapply nth_error_In; exact En]. apply Hf. exact Hdt. }
    destruct (field_tidy _ _ _ _ _ _ _ _ _ _ _ _ _ _ _ _ Hk (optix_nonneg fs i) Heqr (tidy_elem _ _ _ _ _ _ _ _ _ _ Ht En Hx)) as (Ha & Hb & Hc & Hd).
    eapply tidy_upd_field; eauto. intros q num' t' Hq Hne E.
    destruct (Z.eq_dec (optix fs q) (optix fs i)) as [Eq|Eq]; [|rewrite Hb in E by (auto using optix_nonneg); exact E].
    destruct k as [| |mx|]; try (rewrite Hc in E by discriminate; exact E).
    exfalso. apply Hne. eapply optix_inj; eauto.
  - destruct (find_oneof (dotab fuel os) 0 id) as [[p dms]|] eqn:Eo.
    + apply find_oneof_inv in Eo. destruct Eo as (j & ms & t & Ep & En & El & ->). cbn [Nat.add] in Ep. subst p.
      inv_bind H o. apply aget_Done in Heqr. destruct Heqr as [Hx _]. rewrite Nat2Z.id in Hx.
      inv_bind H q. destruct q as [[e1 o1] s1]. inv_bind H ovs1. injection H as <- <- <-.
      apply aset_Done in Heqr0. destruct Heqr0 as [-> _]. rewrite Nat2Z.id.
      eapply tidy_upd_oneof; eauto. eapply oneof_tidy; eauto.
      * intros num t' El'. destruct (desc_member fs os j ms num t' Hok En El') as [Hdt _]. split; [exact Hdt|].
        eapply Forall_forall in Ho; [|eapply nth_error_In; exact En]. eapply Forall_forall in Ho; [|eapply lookup_In; exact El']. apply Ho. exact Hdt.
      * eapply desc_lookup0; eauto.
      * apply tidy_msg_iff in Ht. destruct Ht as [_ Ht]. eapply Ht; eauto.
    + destruct (id =? 0); [injection H as <- <- <-; exact Ht|]. inv_bind H q. destruct q as [e1 s1]. injection H as <- <- <-. exact Ht.
Qed.

Theorem deserialize_tidy fuel t : desc_ok t -> keeps_tidy (deserialize fuel t) t.
Proof.
  induction t as [sc|st max|fs os Hf Ho] using ety_ind'; intros Hok S R v s e v' s' H Ht; try constructor.
  cbn [deserialize] in H. change (msg_loop fuel fuel (dtab fuel fs) (dotab fuel os) R v s = Done (e, v', s')) in H.
  revert v s H Ht. generalize fuel at 2 as n. induction n as [|n IH]; intros v s H Ht; cbn [msg_loop] in H; [discriminate|].
  inv_bind H p. destruct p as [[te ot] s1]. destruct te; try (injection H as <- <- <-; exact Ht).
  destruct ot as [[w id]|]; [|injection H as <- <- <-; exact Ht].
  inv_bind H q. destruct q as [[e1 v1] s2]. pose proof (dispatch_tidy _ _ _ _ _ _ _ _ _ _ _ _ Hok Hf Ho Heqr0 Ht) as Ht1.
  destruct (is_ok e1); [eapply IH; eauto|injection H as <- <- <-; exact Ht1].
Qed.
