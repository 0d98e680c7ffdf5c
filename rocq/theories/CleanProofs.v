(** Left-overs: which calls keep an object free of them ([clean], Spec.v). *)
From Verif Require Import Base Buffers Wire Schema Fields Message Api Spec SpecApi SpecHistory Contracts BitLemmas
  ScalarProofs BufferProofs Struct SerProofs Tables DecodeProofs ClearProofs TidyProofs AssignProofs ApiProofs ApiProps.
From Coq Require Import ZifyBool ZifyNat ZifyN.
Ltac Zify.zify_post_hook ::= Z.div_mod_to_equations.

Definition clean_of (k : fkind) (t : ety) (i : Z) (pres : list Z) (v : value) : Prop := clean_field k t (clean t) i pres v.

Definition oclean (ty : oty) (v : value) : Prop :=
  match ty with OElem t => clean t v | ORep max t => clean_of (KRep max) t 0 [] v end.

Lemma clean_fields_intro fs : forall i pres vs,
  (forall pos num k t x, nth_error fs pos = Some (num, k, t) -> nth_error vs pos = Some x -> clean_of k t (i + optix fs pos) pres x) ->
  clean_fields (ctab fs) i pres vs.
Proof.
  induction fs as [|[[num k] t] fs IH]; intros i pres vs H; cbn [ctab map clean_fields]; [exact I|]. destruct vs as [|v vs]; [exact I|]. split.
  - specialize (H 0%nat num k t v eq_refl eq_refl). cbn [optix] in H. rewrite Z.add_0_r in H. exact H.
  - apply IH. intros pos num' k' t' x Hp Hx. specialize (H (S pos) num' k' t' x Hp Hx). cbn [optix] in H.
    rewrite succ_opt_add, <- Z.add_assoc. exact H.
Qed.

Lemma all2_intro {A B} (P : A -> B -> Prop) : forall l l', length l = length l' ->
  (forall n x y, nth_error l n = Some x -> nth_error l' n = Some y -> P x y) -> all2 P l l'.
Proof.
  induction l as [|a l IH]; intros [|b l'] Hl H; try discriminate; cbn [all2]; [exact I|]. split; [exact (H 0%nat a b eq_refl eq_refl)|].
  apply IH; [cbn in Hl; congruence|]. intros n x y Hx Hy. exact (H (S n) x y Hx Hy).
Qed.

Lemma all2_length {A B} (P : A -> B -> Prop) : forall l l', all2 P l l' -> length l = length l'.
Proof. induction l as [|a l IH]; intros [|b l'] H; try contradiction; cbn in *; [reflexivity|]. f_equal. apply IH. apply H. Qed.

Lemma clean_elem fs os pres vs ovs pos num k t x : clean (EMsg fs os) (VM pres vs ovs) ->
  nth_error fs pos = Some (num, k, t) -> nth_error vs pos = Some x -> clean_of k t (optix fs pos) pres x.
Proof. intros [H _] Hf Hx. exact (clean_fields_nth fs pos 0 pres vs num k t x Hf Hx H). Qed.

Lemma clean_member fs os pres vs ovs pos ms id x t : clean (EMsg fs os) (VM pres vs ovs) ->
  nth_error os pos = Some ms -> nth_error ovs pos = Some (id, x) -> lookup ms id = Some t -> clean t x.
Proof.
  intros [_ H] Hm Hx Hl. destruct (all2_nth _ _ _ _ _ H Hm) as (o & Eo & Hc). assert (o = (id, x)) by congruence. subst o.
  unfold clean_oneof in Hc. cbn [fst snd] in Hc. rewrite (lookup_map clean), Hl in Hc. exact Hc.
Qed.

Lemma clean_upd_field fs os pres pres' vs ovs pos num k t x : clean (EMsg fs os) (VM pres vs ovs) ->
  nth_error fs pos = Some (num, k, t) ->
  (forall q num' t', nth_error fs q = Some (num', KOpt, t') -> q <> pos -> present pres' (optix fs q) = present pres (optix fs q)) ->
  clean_of k t (optix fs pos) pres' x -> clean (EMsg fs os) (VM pres' (upd pos x vs) ovs).
Proof.
  intros [H1 H2] Hf Hp Hx. split; [|exact H2]. eapply clean_fields_upd; [exact Hf| |exact H1|exact Hx]. apply agree_but_0. exact Hp.
Qed.

Definition clean_choice (ms : odesc) (o : Z * value) : Prop := forall t, lookup ms (fst o) = Some t -> clean t (snd o).

Lemma clean_upd_oneof fs os pres vs ovs pos ms o : clean (EMsg fs os) (VM pres vs ovs) ->
  nth_error os pos = Some ms -> clean_choice ms o -> clean (EMsg fs os) (VM pres vs (upd pos o ovs)).
Proof.
  intros [H1 H2] Hf Hx. split; [exact H1|]. eapply all2_upd; [exact H2|exact Hf|]. unfold clean_oneof. rewrite (lookup_map clean).
  specialize (Hx). destruct (lookup ms (fst o)) as [t|] eqn:E; [|exact I]. now apply Hx.
Qed.

Lemma default_clean t : desc_ok t -> clean t (default_value t).
Proof. intros H. now apply default_ok. Qed.

Lemma placement_clean t : desc_ok t -> clean t (placement_new t).
Proof. intros H. destruct t; cbn [placement_new]; [exact I|exact I|]. now apply default_clean. Qed.

Lemma clean_choice_intro fs os pres vs ovs pos ms o : clean (EMsg fs os) (VM pres vs ovs) ->
  nth_error os pos = Some ms -> nth_error ovs pos = Some o -> clean_choice ms o.
Proof. intros H Hm Ho t Hl. destruct o as [id x]. eapply clean_member; eauto. Qed.

(** *** Decoding *)
Definition keeps_clean (d : deserializer) (t : ety) : Prop :=
  forall S (R : rops S) v s e v' s', d S R v s = Done (e, v', s') -> clean t v -> clean t v'.

Lemma section_clean d t : keeps_clean d t -> keeps_clean (deserialize_section d) t.
Proof.
  intros Hd S R v s e v' s' H Ht. unfold deserialize_section in H. inv_bind H p. destruct p as [[e1 on] s1].
  destruct e1; try (injection H as <- <- <-; exact Ht). destruct on as [n|]; try (injection H as <- <- <-; exact Ht).
  inv_bind H q. destruct q as [[e2 v2] sec]. injection H as <- <- <-. eapply Hd; eauto.
Qed.

Lemma elem_check_clean d t w : keeps_clean d t -> keeps_clean (elem_deserialize_check_type t d w) t.
Proof.
  intros Hd S R v s e v' s' H Ht. unfold elem_deserialize_check_type in H.
  destruct t as [sc|st max|fs os]; (destruct (wt_eqb _ w); [|injection H as <- <- <-; exact Ht]).
  - eapply Hd; eauto.
  - eapply Hd; eauto.
  - eapply section_clean; eauto.
Qed.

Lemma all_skipn_more {A} (P : A -> Prop) n m (l : list A) : (n <= m)%nat -> all P (skipn n l) -> all P (skipn m l).
Proof.
  revert m l. induction n as [|n IH]; intros m l Hle H.
  - apply all_Forall. apply all_Forall in H. now apply Forall_skipn.
  - destruct m as [|m]; [lia|]. destruct l as [|a l]; [exact H|]. cbn [skipn] in *. apply IH; [lia|exact H].
Qed.

(** Slots behind the length after one slot in front of it was written. *)
Lemma behind_upd (P : value -> Prop) len len' ix x data : 0 <= ix < len' -> len <= len' ->
  all P (skipn (Z.to_nat len) data) -> all P (skipn (Z.to_nat len') (upd (Z.to_nat ix) x data)).
Proof.
  intros Hix Hle H. rewrite skipn_upd_lt by lia. eapply all_skipn_more; [|exact H]. lia.
Qed.

Lemma rep_get_len len data i ix len' : rep_get len data i = (ix, len') -> ix < len' /\ len <= len'.
Proof.
  unfold rep_get. intros [= <- <-]. destruct (Z.leb_spec len (Z.min i (u32 (zlen data - 1)))); lia.
Qed.

Lemma rep_check_clean fuel d t w max i pres S (R : rops S) v s e v' s' : keeps_clean d t ->
  rep_deserialize_check_type fuel t d w S R v s = Done (e, v', s') ->
  clean_of (KRep max) t i pres v -> clean_of (KRep max) t i pres v'.
Proof.
  intros Hd H Ht. unfold rep_deserialize_check_type in H. destruct (wt_eqb LENDEL w); [|injection H as <- <- <-; exact Ht].
  destruct t as [sc|st mx|fs os]; [destruct v'; exact I|destruct v'; exact I|].
  destruct v as [| | |len data|]; try discriminate H. cbn [rep_deserialize_unpacked] in H. unfold clean_of in *. cbn [clean_field] in *.
  destruct (len <? zlen data); [|injection H as <- <- <-; exact Ht]. destruct (rep_get len data len) as [ix len'] eqn:Eg.
  apply rep_get_len in Eg. inv_bind H x. apply aget_Done in Heqr. destruct Heqr as [Hx Hix].
  inv_bind H p. destruct p as [[e1 on] s1].
  destruct e1; try (injection H as <- <- <-; exact Ht). destruct on as [n|]; try (injection H as <- <- <-; exact Ht).
  inv_bind H q. destruct q as [[e2 x2] sec]. inv_bind H data'. apply aset_Done in Heqr1. destruct Heqr1 as [-> _].
  injection H as <- <- <-. eapply behind_upd; [lia| |exact Ht]. lia.
Qed.

Lemma field_clean fuel num k t d oi w pres v S (R : rops S) s e pres' v' s' : keeps_clean d t -> 0 <= oi ->
  field_deserialize fuel (num, k, t, d) oi w pres v R s = Done (e, pres', v', s') ->
  clean_of k t oi pres v -> clean_of k t oi pres' v'.
Proof.
  intros Hd Hoi H Ht. unfold clean_of in *. cbn [field_deserialize] in H. destruct k as [| |max|].
  - inv_bind H p. destruct p as [[e1 v1] s1]. injection H as <- <- <- <-. cbn [clean_field] in *. eapply elem_check_clean; eauto.
  - inv_bind H pr. destruct (presence_set_mono _ _ _ Heqr Hoi) as [Ha Hb].
    inv_bind H p. destruct p as [[e1 v1] s1]. injection H as <- <- <- <-. cbn [clean_field] in *. destruct Ht as [Ht1 Ht2].
    split; [eapply elem_check_clean; eauto|]. intros E. congruence.
  - inv_bind H p. destruct p as [[e1 v1] s1]. injection H as <- <- <- <-. exact (rep_check_clean fuel d t w max oi pres S R v s _ _ _ Hd Heqr Ht).
  - injection H as <- <- <- <-. exact Ht.
Qed.

Lemma oneof_init_clean {X} (ms : odesc) (f : ety -> X) id o : (forall num t, lookup ms num = Some t -> desc_ok t) ->
  clean_choice ms (oneof_init (map (fun '(n, t) => (n, t, f t)) ms) id o).
Proof.
  intros Hd t Hl. unfold oneof_init in *. rewrite find_member_map in *. destruct (lookup ms id) as [t'|] eqn:E; cbn [fst snd] in *.
  - assert (t' = t) by congruence. subst. destruct (is_enum t) eqn:Ee.
    + destruct t; try discriminate Ee. exact I.
    + apply placement_clean. eauto.
  - congruence.
Qed.

Lemma oneof_clear_clean {X} (ms : odesc) (f : ety -> X) o : lookup ms 0 = None ->
  clean_choice ms (oneof_clear (map (fun '(n, t) => (n, t, f t)) ms) o).
Proof.
  intros H0 t Hl. unfold oneof_clear in *. destruct (find_member _ (fst o)) as [[t' d]|]; cbn [fst] in Hl; congruence.
Qed.

Lemma oneof_clean fuel ms id w o S (R : rops S) s e o' s' :
  (forall num t, lookup ms num = Some t -> desc_ok t /\ keeps_clean (deserialize fuel t) t) -> lookup ms 0 = None ->
  oneof_deserialize (map (fun '(n, t) => (n, t, deserialize fuel t)) ms) id w o R s = Done (e, o', s') ->
  clean_choice ms o -> clean_choice ms o'.
Proof.
  intros Hms H0 H Ht. unfold oneof_deserialize in H.
  set (o1 := if id =? fst o then o else oneof_init (map (fun '(n, t) => (n, t, deserialize fuel t)) ms) id o) in H.
  assert (H1 : clean_choice ms o1).
  { unfold o1. destruct (id =? fst o); [exact Ht|]. apply oneof_init_clean. intros num t Hl. apply (Hms _ _ Hl). }
  clearbody o1. inv_bind H p. destruct p as [[e2 o2] s2]. injection H as <- <- <-.
  destruct (is_ok e2); [|apply oneof_clear_clean; exact H0].
  rewrite find_member_map in Heqr. destruct (lookup ms (fst o1)) as [t|] eqn:El; cbn [option_map] in Heqr.
  - inv_bind Heqr q. destruct q as [[e3 v3] s3]. injection Heqr as <- <- <-. intros t' Hl. cbn [fst snd] in *.
    assert (t' = t) by congruence. subst t'. eapply elem_check_clean; [apply (Hms _ _ El)|eauto|apply H1; exact El].
  - injection Heqr as <- <- <-. exact H1.
Qed.

Lemma dispatch_clean fuel fs os id w S (R : rops S) v s e v' s' : desc_ok (EMsg fs os) ->
  Forall (fun f : fdesc => desc_ok (snd f) -> keeps_clean (deserialize fuel (snd f)) (snd f)) fs ->
  Forall (Forall (fun p : Z * ety => desc_ok (snd p) -> keeps_clean (deserialize fuel (snd p)) (snd p))) os ->
  msg_dispatch fuel (dtab fuel fs) (dotab fuel os) id w R v s = Done (e, v', s') ->
  clean (EMsg fs os) v -> clean (EMsg fs os) v'.
Proof.
  intros Hok Hf Ho H Ht. destruct v as [| | | |pres vs ovs]; try discriminate H. cbn [msg_dispatch] in H.
  destruct (find_field (dtab fuel fs) 0 0 id) as [[[p oi] f]|] eqn:Ef.
  - apply find_field_inv in Ef. destruct Ef as (i & k & t & Ep & Eo & En & ->). cbn [Nat.add] in Ep. subst p. rewrite Z.add_0_l in Eo. subst oi.
    destruct (desc_field fs os i id k t Hok En) as (Hdt & _ & _).
    inv_bind H x. apply aget_Done in Heqr. destruct Heqr as [Hx _]. rewrite Nat2Z.id in Hx.
    inv_bind H q. destruct q as [[[e1 pres1] x1] s1]. inv_bind H vs1. injection H as <- <- <-.
    apply aset_Done in Heqr0. destruct Heqr0 as [-> _]. rewrite Nat2Z.id.
    assert (Hk : keeps_clean (deserialize fuel t) t).
    { eapply Forall_forall in Hf; [|eapply nth_error_In; exact En]. apply Hf. exact Hdt. }
    pose proof (field_clean _ _ _ _ _ _ _ _ _ _ _ _ _ _ _ _ Hk (optix_nonneg fs i) Heqr (clean_elem _ _ _ _ _ _ _ _ _ _ Ht En Hx)) as Ha.
    assert (Hpres : (forall j, 0 <= j -> j <> optix fs i -> present pres1 j = present pres j) /\ (k <> KOpt -> pres1 = pres)).
    { clear -Heqr. pose proof (optix_nonneg fs i) as Hn. cbn [field_deserialize] in Heqr. destruct k as [| |mx|].
      - inv_bind Heqr q. destruct q as [[? ?] ?]. injection Heqr as <- <- <- <-. auto.
      - inv_bind Heqr q. destruct (presence_set_mono _ _ _ Heqr0 Hn) as [_ Hb]. inv_bind Heqr q'. destruct q' as [[? ?] ?].
        injection Heqr as <- <- <- <-. split; [exact Hb|congruence].
      - inv_bind Heqr q. destruct q as [[? ?] ?]. injection Heqr as <- <- <- <-. auto.
      - injection Heqr as <- <- <- <-. auto. }
    destruct Hpres as [Hb Hc].
    eapply clean_upd_field; eauto. intros q num' t' Hq Hne.
    destruct (Z.eq_dec (optix fs q) (optix fs i)) as [Eq|Eq]; [|apply Hb; auto using optix_nonneg].
    destruct k as [| |mx|]; try (rewrite Hc by discriminate; reflexivity).
    exfalso. apply Hne. eapply optix_inj; eauto.
  - destruct (find_oneof (dotab fuel os) 0 id) as [[p dms]|] eqn:Eo.
    + apply find_oneof_inv in Eo. destruct Eo as (j & ms & t & Ep & En & El & ->). cbn [Nat.add] in Ep. subst p.
      inv_bind H o. apply aget_Done in Heqr. destruct Heqr as [Hx _]. rewrite Nat2Z.id in Hx.
      inv_bind H q. destruct q as [[e1 o1] s1]. inv_bind H ovs1. injection H as <- <- <-.
      apply aset_Done in Heqr0. destruct Heqr0 as [-> _]. rewrite Nat2Z.id.
      eapply clean_upd_oneof; eauto. eapply oneof_clean; eauto.
      * intros num t' El'. destruct (desc_member fs os j ms num t' Hok En El') as [Hdt _]. split; [exact Hdt|].
        eapply Forall_forall in Ho; [|eapply nth_error_In; exact En]. eapply Forall_forall in Ho; [|eapply lookup_In; exact El']. apply Ho. exact Hdt.
      * eapply desc_lookup0; eauto.
      * eapply clean_choice_intro; eauto.
    + destruct (id =? 0); [injection H as <- <- <-; exact Ht|]. inv_bind H q. destruct q as [e1 s1]. injection H as <- <- <-. exact Ht.
Qed.

Theorem deserialize_clean fuel t : desc_ok t -> keeps_clean (deserialize fuel t) t.
Proof.
  induction t as [sc|st max|fs os Hf Ho] using ety_ind'; intros Hok S R v s e v' s' H Ht; [exact I|exact I|].
  cbn [deserialize] in H. change (msg_loop fuel fuel (dtab fuel fs) (dotab fuel os) R v s = Done (e, v', s')) in H.
  revert v s H Ht. generalize fuel at 2 as n. induction n as [|n IH]; intros v s H Ht; cbn [msg_loop] in H; [discriminate|].
  inv_bind H p. destruct p as [[te ot] s1]. destruct te; try (injection H as <- <- <-; exact Ht).
  destruct ot as [[w id]|]; [|injection H as <- <- <-; exact Ht].
  inv_bind H q. destruct q as [[e1 v1] s2]. pose proof (dispatch_clean _ _ _ _ _ _ _ _ _ _ _ _ Hok Hf Ho Heqr0 Ht) as Ht1.
  destruct (is_ok e1); [eapply IH; eauto|injection H as <- <- <-; exact Ht1].
Qed.

(** *** Assignment *)
Lemma ns_inv fs os vs ovs vs' ovs' : no_shorter (EMsg fs os) (SvM vs ovs) (SvM vs' ovs') ->
  (forall pos num t a b, nth_error fs pos = Some (num, KPlain, t) ->
     nth_error vs pos = Some a -> nth_error vs' pos = Some b -> no_shorter t a b)
  /\ (forall pos num t a b, nth_error fs pos = Some (num, KOpt, t) ->
     nth_error vs pos = Some (SvSome a) -> nth_error vs' pos = Some (SvSome b) -> no_shorter t a b)
  /\ (forall pos num max fs' os' l l', nth_error fs pos = Some (num, KRep max, EMsg fs' os') ->
     nth_error vs pos = Some (SvR l) -> nth_error vs' pos = Some (SvR l') -> zlen l <= zlen l')
  /\ (forall pos ms id t a b, nth_error os pos = Some ms -> lookup ms id = Some t ->
     nth_error ovs pos = Some (id, SvSome a) -> nth_error ovs' pos = Some (id, SvSome b) -> no_shorter t a b).
Proof. intros H. inversion H; subst. auto. Qed.

Lemma no_shorter_default t : desc_ok t -> forall v, wt t v -> no_shorter t (sdefault t) (view t v).
Proof.
  induction t as [sc|st max|fs os Hf Ho] using ety_ind'; intros Hd v Hw; try constructor.
  destruct v as [| | | |pres vs ovs]; try contradiction. pose proof Hd as Hd0. cbn [wt] in Hw. destruct Hw as (_ & _ & Hw1 & Hw2).
  rewrite view_tab. cbn [sdefault]. constructor.
  - intros pos num t a b Hp Ha Hb. rewrite (map_nth_error (fun '(_, k, t) => sdefault_field k (sdefault t)) _ _ Hp) in Ha.
    cbn [sdefault_field] in Ha. injection Ha as <-.
    destruct (all2_nth _ _ _ _ _ Hw1 Hp) as (x & Ex & Hwx).
    pose proof (view_fields_nth_fwd fs pos 0 pres vs num KPlain t x Hp Ex) as Hn. assert (b = view t x) by (cbn [view_field] in Hn; congruence). subst b.
    destruct (desc_field fs os pos num KPlain t Hd0 Hp) as (Hdt & _ & _).
    eapply Forall_forall in Hf; [|eapply nth_error_In; exact Hp]. now apply Hf.
  - intros pos num t a b Hp Ha Hb. rewrite (map_nth_error (fun '(_, k, t) => sdefault_field k (sdefault t)) _ _ Hp) in Ha. discriminate Ha.
  - intros pos num max fs' os' l l' Hp Ha Hb. rewrite (map_nth_error (fun '(_, k, t) => sdefault_field k (sdefault t)) _ _ Hp) in Ha.
    cbn [sdefault_field] in Ha. injection Ha as <-. unfold zlen. cbn [length]. lia.
  - intros pos ms id t a b Hm Hl Ha Hb. rewrite (map_nth_error (fun _ => (0, SvNone)) _ _ Hm) in Ha. discriminate Ha.
Qed.

Lemma no_shorter_refl t : forall v, wt t v -> no_shorter t (view t v) (view t v).
Proof.
  induction t as [sc|st max|fs os Hf Ho] using ety_ind'; intros v Hw; try constructor.
  destruct v as [| | | |pres vs ovs]; try contradiction. cbn [wt] in Hw. destruct Hw as (_ & _ & Hw1 & Hw2).
  rewrite view_tab. constructor.
  - intros pos num t a b Hp Ha Hb. assert (b = a) by congruence. subst b.
    destruct (all2_nth _ _ _ _ _ Hw1 Hp) as (x & Ex & Hwx).
    pose proof (view_fields_nth_fwd fs pos 0 pres vs num KPlain t x Hp Ex) as Hn. assert (a = view t x) by (cbn [view_field] in Hn; congruence). subst a.
    eapply Forall_forall in Hf; [|eapply nth_error_In; exact Hp]. now apply Hf.
  - intros pos num t a b Hp Ha Hb. assert (b = a) by congruence. subst b.
    destruct (all2_nth _ _ _ _ _ Hw1 Hp) as (x & Ex & Hwx).
    pose proof (view_fields_nth_fwd fs pos 0 pres vs num KOpt t x Hp Ex) as Hn. cbn [view_field] in Hn. rewrite Ha in Hn.
    destruct (present pres (0 + optix fs pos)); [|discriminate Hn]. injection Hn as ->.
    eapply Forall_forall in Hf; [|eapply nth_error_In; exact Hp]. now apply Hf.
  - intros pos num max fs' os' l l' Hp Ha Hb. assert (l' = l) by congruence. subst. lia.
  - intros pos ms id t a b Hm Hl Ha Hb. assert (b = a) by congruence. subst b.
    destruct (view_oneofs_nth os ovs pos ms _ Hm Ha) as ([id' x] & Ex & E). unfold view_oneof in E. cbn [fst snd] in E. rewrite (lookup_map view) in E.
    destruct (lookup ms id') as [t'|] eqn:El; cbn [option_map] in E; [|discriminate E]. injection E as -> ->. assert (t' = t) by congruence. subst t'.
    destruct (all2_nth _ _ _ _ _ Hw2 Hm) as (o & Eo & Hwo). assert (o = (id', x)) by congruence. subst o.
    unfold wt_oneof in Hwo. cbn [fst snd] in Hwo. rewrite (lookup_map wt), El in Hwo.
    eapply Forall_forall in Ho; [|eapply nth_error_In; exact Hm]. eapply Forall_forall in Ho; [|eapply lookup_In; exact El]. now apply Ho.
Qed.

Definition asg_clean (t : ety) : Prop := desc_ok t -> forall dst src dst', wt t dst -> tidy t dst -> clean t dst -> wt t src ->
  no_shorter t (view t dst) (view t src) -> assign t dst src = Done dst' -> clean t dst'.

Lemma set_data_loop_behind asg : forall n i dst src dst', 0 <= i -> rep_set_data_loop asg n i dst src = Done dst' ->
  skipn (Z.to_nat i + n) dst' = skipn (Z.to_nat i + n) dst.
Proof.
  induction n as [|n IH]; intros i dst src dst' Hi H; cbn [rep_set_data_loop] in H; [now injection H as <-|].
  inv_bind H y. inv_bind H x. inv_bind H x'. inv_bind H d1. apply aset_Done in Heqr2. destruct Heqr2 as [-> _].
  apply IH in H; [|lia]. replace (Z.to_nat (i + 1) + n)%nat with (Z.to_nat i + S n)%nat in H by lia. rewrite H. apply skipn_upd_lt. lia.
Qed.

Lemma rep_copy_behind asg : forall n i dst src dst', 0 <= i -> rep_copy asg n i dst src = Done dst' ->
  skipn (Z.to_nat i + n) dst' = skipn (Z.to_nat i + n) dst.
Proof.
  induction n as [|n IH]; intros i dst src dst' Hi H; cbn [rep_copy] in H; [now injection H as <-|].
  inv_bind H y. inv_bind H x. inv_bind H x'. inv_bind H d1. apply aset_Done in Heqr2. destruct Heqr2 as [-> _].
  apply IH in H; [|lia]. replace (Z.to_nat (i + 1) + n)%nat with (Z.to_nat i + S n)%nat in H by lia. rewrite H. apply skipn_upd_lt. lia.
Qed.

Lemma rep_view_len max t i pres v l : wt_field (KRep max) (wt t) v -> view_field (KRep max) (view t) i pres v = SvR l ->
  exists len data, v = VR len data /\ zlen l = len.
Proof.
  intros Hw Hv. destruct v as [| | |len data|]; try contradiction. destruct Hw as (Hl & Hz & _). cbn [view_field] in Hv. injection Hv as <-.
  exists len, data. split; [reflexivity|]. rewrite zlen_map, zlen_firstn. lia.
Qed.

Lemma rep_assign_clean max t asg dst src v' i pres j p : wt_field (KRep max) (wt t) dst -> wt_field (KRep max) (wt t) src ->
  (forall fs os, t = EMsg fs os -> forall l l', view_field (KRep max) (view t) 0 [] dst = SvR l ->
     view_field (KRep max) (view t) 0 [] src = SvR l' -> zlen l <= zlen l') ->
  rep_assign asg dst src = Done v' -> clean_of (KRep max) t i pres dst -> clean_of (KRep max) t j p v'.
Proof.
  intros Hd Hs Hle H Hc. unfold clean_of in *. cbn [clean_field] in *. destruct t as [| |fs os]; [destruct v'; exact I|destruct v'; exact I|].
  destruct dst as [| | |dl dd|]; try contradiction. destruct src as [| | |sl sd|]; try contradiction. cbn [rep_assign] in H.
  inv_bind H dd'. injection H as <-.
  specialize (Hle fs os eq_refl _ _ eq_refl eq_refl). rewrite !zlen_map, !zlen_firstn in Hle.
  destruct Hd as (Hd1 & Hd2 & _). destruct Hs as (Hs1 & Hs2 & _).
  apply rep_copy_behind in Heqr; [|lia]. cbn [Z.to_nat Nat.add] in Heqr. rewrite Heqr. eapply all_skipn_more; [|exact Hc]. lia.
Qed.

Lemma fields_assign_nth fs : forall oi pd ps dst src pd' vs',
  fields_assign (map (fun '(num, k, t) => (num, k, t, assign t)) fs) oi pd ps dst src = Done (pd', vs') ->
  forall pos num k t v', nth_error fs pos = Some (num, k, t) -> nth_error vs' pos = Some v' ->
  exists pa pb d x, nth_error dst pos = Some d /\ nth_error src pos = Some x
    /\ field_assign k t (clear t) (assign t) (oi + optix fs pos) pa ps d x = Done (pb, v').
Proof.
  induction fs as [|[[num0 k0] t0] fs IH]; intros oi pd ps dst src pd' vs' H pos num k t v' Hp Hv; [destruct pos; discriminate|].
  destruct dst as [|d dst]; [discriminate H|]. destruct src as [|x src]; [discriminate H|]. cbn [map fields_assign] in H.
  inv_bind H q. destruct q as [pd1 v1]. inv_bind H q. destruct q as [pd2 vs2]. injection H as <- <-. destruct pos as [|pos]; cbn [nth_error optix] in *.
  - injection Hp as -> -> ->. injection Hv as ->. rewrite Z.add_0_r. exists pd, pd1, d, x. auto.
  - rewrite next_opt_succ, (succ_opt_add k0 oi) in Heqr0. destruct (IH _ _ _ _ _ _ _ Heqr0 pos num k t v' Hp Hv) as (pa & pb & d' & x' & H1 & H2 & H3).
    rewrite Z.add_assoc. eauto 10.
Qed.

Lemma oneofs_assign_nth os : forall dst src os', oneofs_assign (map (map (fun '(num, t) => (num, t, assign t))) os) dst src = Done os' ->
  length os' = length os /\
  forall pos ms o', nth_error os pos = Some ms -> nth_error os' pos = Some o' ->
  exists d s, nth_error dst pos = Some d /\ nth_error src pos = Some s
    /\ oneof_assign (map (fun '(num, t) => (num, t, assign t)) ms) d s = Done o'.
Proof.
  induction os as [|ms0 os IH]; intros dst src os' H; (destruct dst as [|d dst]; [try discriminate H|try discriminate H]);
    (destruct src as [|x src]; [try discriminate H|try discriminate H]); cbn [map oneofs_assign] in H.
  - injection H as <-. split; [reflexivity|]. intros [|pos]; discriminate.
  - inv_bind H o. inv_bind H os1. injection H as <-. destruct (IH _ _ _ Heqr0) as [Hl IH']. split; [cbn [length]; congruence|].
    intros [|pos] ms o' Hm Ho; cbn [nth_error] in *; [|eauto]. injection Hm as ->. injection Ho as ->. eauto.
Qed.

Lemma elem_set_clean t d x v' : asg_clean t -> desc_ok t -> wt t d -> tidy t d -> clean t d -> wt t x -> no_shorter t (view t d) (view t x) ->
  elem_set t (assign t) d x = Done v' -> clean t v'.
Proof. intros Ha Hd Hw Ht Hc Hx Hn H. destruct t as [| |fs os]; [exact I|exact I|]. cbn [elem_set] in H. exact (Ha Hd d x v' Hw Ht Hc Hx Hn H). Qed.

Theorem assign_clean t : asg_clean t.
Proof.
  induction t as [sc|st max|fs os Hf Ho] using ety_ind'; intros Hd dst src dst' Hwd Htd Hcd Hws Hns H; [exact I|exact I|].
  destruct (assign_ok (EMsg fs os) Hd dst src (asg_pre_intro _ _ Hwd Htd) Hws) as (r & Er & Hwr & _ & Hvr).
  assert (r = dst') by congruence. subst r. clear Er.
  destruct dst as [| | | |pd vd od]; try contradiction. destruct src as [| | | |ps vs ovs]; try contradiction.
  cbn [assign] in H. inv_bind H q. destruct q as [p' v']. inv_bind H o'. injection H as <-.
  pose proof Hwd as Hwd0. pose proof Hws as Hws0. cbn [wt] in Hwd, Hws, Hwr. destruct Hwd as (Hzd & Hud & Hwd1 & Hwd2). destruct Hws as (Hzs & Hus & Hws1 & Hws2).
  destruct Hwr as (Hzr & _ & Hwr1 & Hwr2). rewrite !view_tab in Hns. apply ns_inv in Hns. destruct Hns as (N1 & N2 & N3 & N4).
  assert (Hpres : forall pos num t, nth_error fs pos = Some (num, KOpt, t) -> present p' (optix fs pos) = present ps (optix fs pos)).
  { intros pos num t Hp. rewrite !view_tab in Hvr. injection Hvr as Hvr _.
    destruct (all2_nth _ _ _ _ _ Hwr1 Hp) as (a & Ea & _). destruct (all2_nth _ _ _ _ _ Hws1 Hp) as (b & Eb & _).
    pose proof (view_fields_nth_fwd fs pos 0 p' v' num KOpt t a Hp Ea) as Ha. pose proof (view_fields_nth_fwd fs pos 0 ps vs num KOpt t b Hp Eb) as Hb.
    rewrite Hvr in Ha. rewrite Hb in Ha. cbn [view_field] in Ha. rewrite Z.add_0_l in Ha.
    destruct (present p' (optix fs pos)), (present ps (optix fs pos)); congruence. }
  rewrite clean_tab. split.
  - apply clean_fields_intro. intros pos num k t y Hp Hy.
    destruct (fields_assign_nth fs _ _ _ _ _ _ _ Heqr pos num k t y Hp Hy) as (pa & pb & d & x & Ed & Ex & Hfa). rewrite Z.add_0_l in *.
    destruct (all2_nth _ _ _ _ _ Hwd1 Hp) as (d0 & Ed0 & Hwdd). assert (d0 = d) by congruence. subst d0.
    destruct (all2_nth _ _ _ _ _ Hws1 Hp) as (x0 & Ex0 & Hwxx). assert (x0 = x) by congruence. subst x0.
    destruct (desc_field fs os pos num k t Hd Hp) as (Hdt & _ & Hk).
    pose proof (clean_elem _ _ _ _ _ _ _ _ _ _ Hcd Hp Ed) as Hcx. pose proof (tidy_elem _ _ _ _ _ _ _ _ _ _ Htd Hp Ed) as Htx.
    pose proof (view_fields_nth_fwd fs pos 0 pd vd num k t d Hp Ed) as Hvd. pose proof (view_fields_nth_fwd fs pos 0 ps vs num k t x Hp Ex) as Hvx.
    rewrite Z.add_0_l in Hvd, Hvx.
    assert (Ha : asg_clean t). { eapply Forall_forall in Hf; [|eapply nth_error_In; exact Hp]. exact Hf. }
    destruct k as [| |max|]; unfold clean_of in *; cbn [field_assign clean_field tidy_field wt_field view_field] in *.
    + inv_bind Hfa z. injection Hfa as <- <-. eapply (elem_set_clean t d x); eauto.
    + destruct Hcx as [Hc1 Hc2]. destruct Htx as [Ht1 Ht2]. rewrite (Hpres pos num t Hp).
      rewrite (presence_has_ok ps (optix fs pos) (n_optional fs)) in Hfa by (auto; eapply optix_bound; exact Hp). cbn [bind] in Hfa.
      destruct (present ps (optix fs pos)) eqn:Ep.
      * inv_bind Hfa pd1. inv_bind Hfa z. injection Hfa as <- <-. split; [|discriminate]. eapply (elem_set_clean t d x); eauto.
        destruct (present pd (optix fs pos)) eqn:Epd; [eapply N2; eauto|]. rewrite (Hc2 eq_refl). now apply no_shorter_default.
      * cbn [field_clear] in Hfa. inv_bind Hfa pd1. destruct (clear_good t d Hwdd Hdt) as (z & Ez & Hg). rewrite Ez in Hfa. cbn [bind] in Hfa.
        injection Hfa as <- <-. split; [apply Hg|intros _; apply Hg].
    + inv_bind Hfa z. injection Hfa as <- <-. eapply (rep_assign_clean max t (assign t) d x z (optix fs pos) pd (optix fs pos) p'); eauto.
      intros fs' os' -> l l' Hl Hl'. eapply (N3 pos num max fs' os'); [exact Hp|rewrite Hvd; f_equal; exact Hl|rewrite Hvx; f_equal; exact Hl'].
    + exact I.
  - destruct (oneofs_assign_nth os _ _ _ Heqr0) as [Hlen Hnth]. apply all2_intro; [congruence|]. intros pos ms o Hm Hoo.
    destruct (Hnth pos ms o Hm Hoo) as (d & s & Ed & Es & Hoa).
    assert (Hms : forall num t, lookup ms num = Some t -> asg_clean t /\ desc_ok t /\ 1 <= num).
    { intros num t El. destruct (desc_member fs os pos ms num t Hd Hm El) as [Hdt Hn]. split; [|split; [exact Hdt|lia]].
      eapply Forall_forall in Ho; [|eapply nth_error_In; exact Hm]. eapply Forall_forall in Ho; [|eapply lookup_In; exact El]. exact Ho. }
    pose proof (desc_lookup0 fs os pos ms Hd Hm) as H0.
    unfold clean_oneof. rewrite (lookup_map clean). unfold oneof_assign in Hoa. rewrite find_member_map in Hoa.
    set (d1 := if fst s =? fst d then d else oneof_clear (map (fun '(num, t) => (num, t, assign t)) ms) d) in *.
    destruct (all2_nth _ _ _ _ _ Hwd2 Hm) as (d0 & Ed0 & Hwdd). assert (d0 = d) by congruence. subst d0.
    destruct (all2_nth _ _ _ _ _ Hws2 Hm) as (s0 & Es0 & Hwss). assert (s0 = s) by congruence. subst s0.
    unfold wt_oneof in Hwss, Hwdd. rewrite (lookup_map wt) in Hwss, Hwdd.
    pose proof (view_oneofs_nth_fwd os od pos ms d Hm Ed) as Hvd. pose proof (view_oneofs_nth_fwd os ovs pos ms s Hm Es) as Hvs.
    unfold view_oneof in Hvd, Hvs. rewrite (lookup_map view) in Hvd, Hvs.
    destruct (lookup ms (fst s)) as [t|] eqn:El; cbn [option_map] in Hoa, Hwss, Hvs.
    + destruct (Hms _ _ El) as (Ha & Hdt & Hn).
      set (d2 := if fst s =? fst d1 then d1 else oneof_init (map (fun '(num, t) => (num, t, assign t)) ms) (fst s) d1) in *.
      inv_bind Hoa z. injection Hoa as <-. cbn [fst snd].
      assert (H2 : fst d2 = fst s /\ (forall fs' os', t = EMsg fs' os' -> wt t (snd d2) /\ tidy t (snd d2) /\ clean t (snd d2) /\ no_shorter t (view t (snd d2)) (view t (snd s)))).
      { unfold d2. destruct (Z.eqb_spec (fst s) (fst d1)) as [E|E].
        - split; [congruence|]. intros fs' os' Et. unfold d1 in *. destruct (Z.eqb_spec (fst s) (fst d)) as [E'|E'].
          + rewrite <- E', El in Hwdd, Hvd. cbn [option_map] in Hwdd, Hvd.
            split; [exact Hwdd|]. split; [|split].
            * apply tidy_msg_iff in Htd. destruct Htd as [_ Htd]. apply (Htd pos ms d Hm Ed). now rewrite <- E'.
            * destruct d as [id dv]. cbn [fst snd] in *. eapply clean_member; eauto. congruence.
            * exact (N4 pos ms (fst s) t _ _ Hm El Hvd Hvs).
          + exfalso. unfold oneof_clear in E. destruct (find_member _ (fst d)) as [[t' a]|]; cbn [fst] in E; lia.
        - unfold oneof_init. rewrite find_member_map, El. cbn [fst snd option_map]. split; [reflexivity|]. intros fs' os' ->.
          cbn [is_enum placement_new]. split; [now apply default_ok|]. split; [now apply default_tidy|]. split; [now apply default_clean|].
            replace (view (EMsg fs' os') (default_value (EMsg fs' os'))) with (sdefault (EMsg fs' os')) by (symmetry; now apply default_ok).
            now apply no_shorter_default. }
      clearbody d2. destruct H2 as [E2 H2]. rewrite E2, El. cbn [option_map].
      destruct t as [sc|st mx|fs' os']; [exact I|exact I|]. destruct (H2 fs' os' eq_refl) as (Q1 & Q2 & Q3 & Q4). eapply (elem_set_clean _ (snd d2) (snd s)); eauto.
    + injection Hoa as <-.
      assert (Hf1 : lookup ms (fst d1) = None).
      { unfold d1. destruct (Z.eqb_spec (fst s) (fst d)); [congruence|]. unfold oneof_clear. destruct (find_member _ (fst d)) as [[t' a]|]; exact H0. }
      rewrite Hf1. exact I.
Qed.

(** *** All calls *)
Lemma members_map (ms : odesc) : members ms = map (fun '(n, t) => (n, t, (fun _ : ety => tt) t)) ms.
Proof. reflexivity. Qed.

Lemma clear_clean t v v' : wt t v -> desc_ok t -> clear t v = Done v' -> clean t v' /\ view t v' = sdefault t.
Proof. intros Hw Hd H. destruct (clear_good t v Hw Hd) as (x & E & Hg). assert (x = v') by congruence. subst x. split; apply Hg. Qed.

Lemma rep_clear_clean max t v v' i p : wt_field (KRep max) (wt t) v -> desc_ok t -> rep_clear (clear t) v = Done v' ->
  clean_of (KRep max) t i p v'.
Proof.
  intros Hw Hd H. destruct v as [| | |len data|]; try contradiction. destruct Hw as (_ & _ & Hall). cbn [rep_clear] in H.
  destruct (map_res_ok (clear t) (wt t) (fun y => good t y (sdefault t)) data (fun x Hx => clear_good t x Hx Hd) Hall) as (l' & E & Hl' & _).
  rewrite E in H. cbn [bind] in H. injection H as <-. unfold clean_of. cbn [clean_field Z.to_nat skipn]. destruct t; auto.
  eapply all_impl; [|exact Hl']. intros x Hx. split; apply Hx.
Qed.

Theorem op_clean fuel : forall o ty v e v', oty_ok ty -> owt ty v -> otidy ty v -> op_ok ty o -> oclean ty v ->
  keeps_lists ty (oview ty v) o -> run_op fuel o ty v = Done (e, v') -> oclean ty v'.
Proof.
  induction o as [z| |src|src|src len|str|i b|i src|src|src len| |i o IH|pos o IH|pos|pos id o IH|pos id|bytes];
    intros ty v e v' Hok Hw Ht Hl Hc Hk Hr.
  - destruct ty as [[sc| |]|]; try contradiction. exact I.
  - (* OpClear *) destruct ty as [t|max t]; cbn [run_op oty_ok owt oclean] in *.
    + inv_bind Hr x. injection Hr as <- <-. now apply (clear_clean t v).
    + inv_bind Hr x. injection Hr as <- <-. now apply (rep_clear_clean max t v).
  - (* OpAssign *) destruct ty as [t|max t]; cbn [run_op oty_ok owt oclean otidy oview op_ok keeps_lists] in *.
    + inv_bind Hr x. injection Hr as <- <-. exact (assign_clean t Hok v src x Hw Ht Hc Hl Hk Heqr).
    + inv_bind Hr x. injection Hr as <- <-. apply (rep_assign_clean max t (assign t) v src x 0 [] 0 []); auto.
      intros fs os -> l l' E1 E2. apply Hk; assumption.
  - destruct ty as [[|st max|]|]; try contradiction. exact I.
  - destruct ty as [[|st max|]|]; try contradiction. exact I.
  - destruct ty as [[|[] max|]|]; try (destruct str; contradiction). exact I.
  - destruct ty as [[|st max|]|]; try contradiction. exact I.
  - (* OpRepSet *) destruct ty as [|max t]; try contradiction. cbn [run_op oclean owt] in *. destruct v as [| | |len data|]; try contradiction.
    cbn [rep_set] in Hr. destruct (rep_get len data i) as [ix len'] eqn:Eg. apply rep_get_len in Eg. inv_bind Hr x. inv_bind Hr x1. inv_bind Hr d1.
    apply aset_Done in Heqr1. destruct Heqr1 as [-> Hix]. injection Hr as <- <-. unfold clean_of in *. cbn [clean_field] in *.
    destruct t; auto. eapply behind_upd; [| |exact Hc]; lia.
  - (* OpRepAdd *) destruct ty as [|max t]; try contradiction. cbn [run_op oclean owt] in *. destruct v as [| | |len data|]; try contradiction.
    cbn [rep_add] in Hr. destruct (len <? zlen data); [|injection Hr as <- <-; exact Hc]. inv_bind Hr x. inv_bind Hr x1. inv_bind Hr d1.
    apply aset_Done in Heqr1. destruct Heqr1 as [-> Hix]. injection Hr as <- <-. unfold clean_of in *. cbn [clean_field] in *.
    destruct t; auto. eapply behind_upd; [| |exact Hc]; lia.
  - (* OpRepSetData *) destruct ty as [|max t]; try contradiction. cbn [run_op oclean owt oview keeps_lists op_ok] in *. pose proof Hw as Hw0.
    destruct v as [| | |cur data|]; try contradiction.
    cbn [rep_set_data] in Hr. destruct (Z.leb_spec len (zlen data)); [|injection Hr as <- <-; exact Hc].
    inv_bind Hr d1. injection Hr as <- <-. unfold clean_of in *. cbn [clean_field] in *. destruct t as [| |fs os]; auto.
    destruct Hw as (Hcur & Hz & _). specialize (Hk _ eq_refl). rewrite zlen_map, zlen_firstn in Hk.
    apply set_data_loop_behind in Heqr; [|lia]. cbn [Z.to_nat Nat.add] in Heqr. rewrite Heqr. eapply all_skipn_more; [|exact Hc]. lia.
  - cbn [run_op] in Hr. injection Hr as <- <-. exact Hc.
  - (* OpRepAt *) destruct ty as [|max t]; try contradiction. cbn [run_op oclean owt] in *. destruct v as [| | |len data|]; try contradiction.
    destruct (rep_get len data i) as [ix len'] eqn:Eg. apply rep_get_len in Eg. inv_bind Hr x. inv_bind Hr q. destruct q as [e1 x1]. inv_bind Hr d1.
    apply aset_Done in Heqr1. destruct Heqr1 as [-> Hix]. injection Hr as <- <-. unfold clean_of in *. cbn [clean_field] in *.
    destruct t; auto. eapply behind_upd; [|apply Eg|exact Hc]. lia.
  - (* OpField *) destruct ty as [[| |fs os]|]; try contradiction. cbn [op_ok] in Hl.
    destruct (nth_error fs pos) as [[[num k] t]|] eqn:En; [|contradiction]. cbn [oty_ok owt otidy oview oclean] in *.
    assert (Hkr : k <> KRecursive) by (intros ->; contradiction).
    destruct v as [| | | |pres vs ovs]; try contradiction. pose proof Hw as Hw0. cbn [wt] in Hw. destruct Hw as (Hz & Hu & Hw1 & Hw2).
    destruct (desc_field fs os pos num k t Hok En) as (Hdt & _ & Hcap).
    destruct (all2_nth _ _ _ _ _ Hw1 En) as (x & Ex & Hwx).
    pose proof (tidy_elem _ _ _ _ _ _ _ _ _ _ Ht En Ex) as Htx. pose proof (clean_elem _ _ _ _ _ _ _ _ _ _ Hc En Ex) as Hcx.
    pose proof (view_fields_nth_fwd fs pos 0 pres vs num k t x En Ex) as Hn. rewrite Z.add_0_l in Hn.
    cbn [keeps_lists] in Hk. rewrite view_tab in Hk. specialize (Hk num k t _ _ _ En eq_refl Hn).
    assert (Hot : oty_ok (oty_of k t)) by (destruct k; cbn; auto).
    assert (Hop : op_ok (oty_of k t) o) by (destruct k; auto; contradiction).
    assert (Hrun : exists pres' x', run_op fuel o (oty_of k t) x = Done (e, x') /\ v' = VM pres' (upd pos x' vs) ovs
      /\ (match k with KOpt => presence_set pres (opt_index fs pos) | _ => Done pres end) = Done pres').
    { cbn [run_op] in Hr. rewrite En in Hr. rewrite (aget_nat _ _ _ Ex) in Hr. cbn [bind] in Hr.
      assert (Hg : exists pres', (match k with KOpt => presence_set pres (opt_index fs pos) | _ => Done pres end) = Done pres'
        /\ (let* (e, x') := run_op fuel o (oty_of k t) x in let* vs' := aset vs (Z.of_nat pos) x' in Done (e, VM pres' vs' ovs)) = Done (e, v')).
      { destruct k as [| |max|]; cbn [bind] in Hr; try congruence; try (exists pres; split; [reflexivity|exact Hr]).
        inv_bind Hr pres'. exists pres'. split; [reflexivity|exact Hr]. }
      destruct Hg as (pres' & Ep & Hg). inv_bind Hg q. destruct q as [e1 x1]. inv_bind Hg vs1. injection Hg as <- <-.
      apply aset_Done in Heqr0. destruct Heqr0 as [-> _]. rewrite Nat2Z.id. exists pres', x1. auto. }
    destruct Hrun as (pres' & x' & Hrx & -> & Epres).
    assert (Hcx' : oclean (oty_of k t) x').
    { eapply (IH (oty_of k t) x e x'); eauto.
      - now apply owt_field.
      - destruct k; cbn [oty_of otidy tidy_field] in *; auto; try apply Htx. congruence.
      - destruct k; unfold clean_of in *; cbn [oty_of oclean clean_field] in *; auto; try apply Hcx. congruence.
      - destruct k as [| |max|]; cbn [oty_of oview view_field] in *; auto; [|congruence].
        destruct (present pres (optix fs pos)) eqn:Ep; [exact Hk|]. destruct Hcx as [_ Hcx]. rewrite (Hcx Ep). exact Hk. }
    assert (Hp' : (forall q num' t', nth_error fs q = Some (num', KOpt, t') -> q <> pos -> present pres' (optix fs q) = present pres (optix fs q))
       /\ (k = KOpt -> present pres' (optix fs pos) = true)).
    { destruct k as [| |max|]; try (injection Epres as <-; split; [auto|discriminate]).
      rewrite opt_index_optix in Epres. destruct (presence_set_mono _ _ _ Epres (optix_nonneg fs pos)) as [Ha Hb]. split; [|auto].
      intros q num' t' Hq Hne. apply Hb; [apply optix_nonneg|]. intros E. apply Hne. eapply optix_inj; eauto. }
    destruct Hp' as [Hp' Hset]. eapply clean_upd_field; eauto.
    destruct k as [| |max|]; unfold clean_of in *; cbn [oty_of oclean clean_field] in *; auto. split; [exact Hcx'|]. rewrite (Hset eq_refl). discriminate.
  - (* OpClearField *) destruct ty as [[| |fs os]|]; try contradiction. cbn [run_op op_ok] in Hl, Hr.
    destruct (nth_error fs pos) as [[[num k] t]|] eqn:En; [|congruence]. cbn [oty_ok owt otidy oview oclean] in *.
    destruct v as [| | | |pres vs ovs]; try contradiction. pose proof Hw as Hw0. cbn [wt] in Hw. destruct Hw as (Hz & Hu & Hw1 & Hw2).
    apply all_Forall in Hu. destruct (desc_field fs os pos num k t Hok En) as (Hdt & _ & Hcap).
    destruct (all2_nth _ _ _ _ _ Hw1 En) as (x & Ex & Hwx). rewrite (aget_nat _ _ _ Ex) in Hr. cbn [bind] in Hr.
    pose proof (clean_elem _ _ _ _ _ _ _ _ _ _ Hc En Ex) as Hcx.
    inv_bind Hr q. destruct q as [pres' x']. inv_bind Hr vs1. apply aset_Done in Heqr0. destruct Heqr0 as [-> _]. rewrite Nat2Z.id in Hr. injection Hr as <- <-.
    destruct k as [| |max|]; cbn [field_clear wt_field] in Heqr, Hwx.
    + inv_bind Heqr y. injection Heqr as <- <-. eapply clean_upd_field; eauto. unfold clean_of. cbn [clean_field]. now apply (clear_clean t x).
    + rewrite opt_index_optix in Heqr.
      destruct (presence_clear_ok pres (optix fs pos) (n_optional fs)) as (p' & Ep & _ & _ & Hp'); auto; [eapply optix_bound; exact En|].
      rewrite Ep in Heqr. cbn [bind] in Heqr. inv_bind Heqr y. injection Heqr as <- <-. eapply clean_upd_field; eauto.
      * intros q num' t' Hq Hne. rewrite Hp' by apply optix_nonneg. destruct (Z.eqb_spec (optix fs q) (optix fs pos)); [|reflexivity].
        exfalso. apply Hne. eapply optix_inj; eauto.
      * unfold clean_of. cbn [clean_field]. destruct (clear_clean t x y Hwx Hdt Heqr0) as [Ha Hb]. split; [exact Ha|intros _; exact Hb].
    + inv_bind Heqr y. injection Heqr as <- <-. eapply clean_upd_field; eauto. now apply (rep_clear_clean max t x).
    + injection Heqr as <- <-. eapply clean_upd_field; eauto.
  - (* OpOneof *) destruct ty as [[| |fs os]|]; try contradiction. cbn [op_ok] in Hl.
    destruct (nth_error os pos) as [ms|] eqn:En; [|contradiction]. destruct (lookup ms id) as [t|] eqn:El; [|contradiction].
    cbn [oty_ok owt otidy oview oclean run_op] in *. rewrite En in Hr.
    destruct v as [| | | |pres vs ovs]; try contradiction. pose proof Hw as Hw0. cbn [wt] in Hw. destruct Hw as (Hz & Hu & Hw1 & Hw2).
    destruct (desc_member fs os pos ms id t Hok En El) as [Hdt Hid].
    destruct (all2_nth _ _ _ _ _ Hw2 En) as ([which x] & Ex & Hwx). unfold members in Hr. rewrite find_member_map, El, (aget_nat _ _ _ Ex) in Hr.
    cbn [bind fst option_map] in Hr.
    assert (Htx : tidy_oneof ms (which, x)). { apply tidy_msg_iff in Ht. destruct Ht as [_ Ht]. eapply Ht; eauto. }
    assert (Hn : nth_error (view_oneofs (votab os) ovs) pos = Some (view_oneof (map (fun '(num, t) => (num, view t)) ms) (which, x))) by now apply view_oneofs_nth_fwd.
    unfold view_oneof in Hn. cbn [fst snd] in Hn. rewrite (lookup_map view) in Hn. unfold wt_oneof in Hwx. cbn [fst snd] in Hwx. rewrite (lookup_map wt) in Hwx.
    set (d' := if id =? which then (which, x) else oneof_init (map (fun '(num, t) => (num, t, tt)) ms) id (which, x)) in *.
    inv_bind Hr q. destruct q as [e1 x1]. inv_bind Hr ovs1. apply aset_Done in Heqr0. destruct Heqr0 as [-> _]. rewrite Nat2Z.id in Hr. injection Hr as <- <-.
    eapply clean_upd_oneof; eauto. intros t' El'. cbn [fst snd] in *.
    assert (Efst : fst d' = id).
    { unfold d'. destruct (Z.eqb_spec id which); [cbn; congruence|]. now apply (oneof_init_pre ms (fun _ => tt) id (which, x) t El Hdt). }
    assert (t' = t) by congruence. subst t'. destruct t as [sc|st max|fs' os']; [exact I|exact I|].
    cbn [keeps_lists] in Hk. rewrite view_tab in Hk.
    assert (Hd' : wt (EMsg fs' os') (snd d') /\ tidy (EMsg fs' os') (snd d') /\ clean (EMsg fs' os') (snd d')
                  /\ keeps_lists (OElem (EMsg fs' os')) (view (EMsg fs' os') (snd d')) o).
    { unfold d'. destruct (Z.eqb_spec id which) as [E|E]; cbn [snd].
      - subst which. rewrite El in Hwx, Hn. cbn [option_map] in Hwx, Hn. split; [exact Hwx|]. split; [now apply (Htx (EMsg fs' os'))|].
        split; [eapply clean_member; eauto|]. specialize (Hk ms _ _ _ _ _ En El eq_refl Hn). cbv iota in Hk. rewrite Z.eqb_refl in Hk. exact Hk.
      - unfold oneof_init. rewrite find_member_map, El. cbn [snd is_enum placement_new option_map].
        split; [now apply default_ok|]. split; [now apply default_tidy|]. split; [now apply default_clean|].
        replace (view (EMsg fs' os') (default_value (EMsg fs' os'))) with (sdefault (EMsg fs' os')) by (symmetry; now apply default_ok).
        destruct (lookup ms which) as [tw|]; cbn [option_map] in Hn; specialize (Hk ms _ _ _ _ _ En El eq_refl Hn); cbv iota in Hk; [|exact Hk].
        destruct (Z.eqb_spec which id); [congruence|exact Hk]. }
    destruct Hd' as (Q1 & Q2 & Q3 & Q4). exact (IH (OElem (EMsg fs' os')) (snd d') _ _ Hdt Q1 Q2 Hl Q3 Q4 Heqr).
  - (* OpOneofClear *) destruct ty as [[| |fs os]|]; try contradiction. cbn [run_op op_ok] in Hl, Hr.
    destruct (nth_error os pos) as [ms|] eqn:En; [|contradiction]. cbn [oty_ok owt otidy oview oclean] in *.
    destruct v as [| | | |pres vs ovs]; try contradiction. inv_bind Hr d. apply aget_Done in Heqr. destruct Heqr as [Hx _]. rewrite Nat2Z.id in Hx.
    inv_bind Hr ovs1. apply aset_Done in Heqr. destruct Heqr as [-> _]. rewrite Nat2Z.id in Hr. injection Hr as <- <-.
    eapply clean_upd_oneof; eauto. pose proof (clean_choice_intro _ _ _ _ _ _ _ _ Hc En Hx) as Hd.
    destruct (find_member (members ms) id) as [[t' u]|]; [|exact Hd]. destruct (id =? fst d); [|exact Hd].
    apply (oneof_clear_clean ms (fun _ => tt)). eapply desc_lookup0; eauto.
  - (* OpDeserialize *) destruct ty as [[| |fs os]|]; try contradiction. cbn [run_op oty_ok oclean] in *. inv_bind Hr q. destruct q as [[e1 v1] s1].
    injection Hr as <- <-. eapply deserialize_clean; eauto.
Qed.

(** *** Histories *)
Lemma construct_clean ty : oty_ok ty -> oclean ty (construct ty).
Proof.
  destruct ty as [t|max t]; cbn [oty_ok oclean construct].
  - apply default_clean.
  - intros [Hd Hc]. unfold clean_of. cbn [clean_field default_field_of Z.to_nat skipn]. destruct t; auto.
    apply all_repeat. split; now apply default_ok.
Qed.

Lemma run_ops_snoc fuel ty : forall ops v o, run_ops fuel (ops ++ [o]) ty v = (let* v1 := run_ops fuel ops ty v in let* (_, v2) := run_op fuel o ty v1 in Done v2).
Proof.
  induction ops as [|a ops IH]; intros v o; cbn [app run_ops bind].
  - destruct (run_op fuel o ty v) as [[e v']| |]; reflexivity.
  - destruct (run_op fuel a ty v) as [[e v']| |]; cbn [bind]; [apply IH|reflexivity|reflexivity].
Qed.

Lemma history_clean : forall ty ops fuel v, oty_ok ty -> Forall (op_ok ty) ops -> careful fuel ty ops ->
  run_ops fuel ops ty (construct ty) = Done v -> oclean ty v.
Proof.
  intros ty ops fuel. induction ops as [|o ops IH] using rev_ind; intros v Hok Hl Hcar Hr.
  - cbn [run_ops] in Hr. injection Hr as <-. now apply construct_clean.
  - rewrite run_ops_snoc in Hr. inv_bind Hr v1. inv_bind Hr q. destruct q as [e v2]. injection Hr as <-.
    apply Forall_app in Hl. destruct Hl as [Hl Ho]. inversion Ho as [|? ? Ho1 _]; subst.
    assert (Hc1 : oclean ty v1).
    { apply IH; auto. intros b o' a v' -> Hv'. apply (Hcar b o' (a ++ [o]) v'); [|exact Hv']. now rewrite <- app_assoc. }
    destruct (reached_ok fuel ty ops v1 Hok Hl Heqr) as (Hw & Ht & _).
    exact (op_clean fuel o ty v1 e v2 Hok Hw Ht Ho1 Hc1 (Hcar ops o [] v1 eq_refl Heqr) Heqr0).
Qed.

Lemma no_copying_keeps : forall o ty x, no_copying o -> keeps_lists ty x o.
Proof.
  induction o as [z| |src|src|src len|str|i b|i src|src|src len| |i o IH|pos o IH|pos|pos id o IH|pos id|bytes]; intros ty x Hn;
    cbn [no_copying] in Hn; try contradiction; destruct ty as [[| |fs os]|mx t0]; cbn [keeps_lists]; auto.
  - intros num k t vs ovs y _ _ _. destruct k; try (apply IH; exact Hn). destruct y; apply IH; exact Hn.
  - intros ms t vs ovs which y _ _ _ _. destruct y; apply IH; exact Hn.
Qed.

Lemma no_copying_careful fuel ty ops : Forall no_copying ops -> careful fuel ty ops.
Proof.
  intros H b o a v -> _. apply no_copying_keeps. apply Forall_app in H. destruct H as [_ H]. now inversion H.
Qed.
