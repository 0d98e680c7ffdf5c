(** A record changes only the field it names: proofs for C84. *)
From Verif Require Import Base Buffers Wire Schema Fields Message Api Spec Contracts BitLemmas Struct Tables BufferProofs DecodeProofs TidyProofs
  ApiProofs SerProofs SafetyProofs SafetyMsg AnyBuffer ReadProofs WireProps SpecMentions.
From Coq Require Import ZifyBool ZifyNat ZifyN.
Ltac Zify.zify_post_hook ::= Z.div_mod_to_equations.

(** [v'] differs from [v] only in fields whose number is in [P]. *)
Definition kept (P : Z -> Prop) (fs : list fdesc) (os : list odesc) (v v' : value) : Prop :=
  match v, v' with
  | VM pres vs ovs, VM pres' vs' ovs' =>
      (forall i num k t, nth_error fs i = Some (num, k, t) -> ~ P num ->
         nth_error vs' i = nth_error vs i /\ (k = KOpt -> present pres' (optix fs i) = present pres (optix fs i)))
      /\ (forall j ms, nth_error os j = Some ms -> (forall num t, lookup ms num = Some t -> ~ P num) ->
         nth_error ovs' j = nth_error ovs j)
  | _, _ => False
  end.

Lemma kept_refl P fs os pres vs ovs : kept P fs os (VM pres vs ovs) (VM pres vs ovs).
Proof. cbn [kept]. auto. Qed.

Lemma kept_trans P fs os v1 v2 v3 : kept P fs os v1 v2 -> kept P fs os v2 v3 -> kept P fs os v1 v3.
Proof.
  destruct v1, v2, v3; cbn [kept]; try tauto. intros [H1 H2] [H3 H4]. split.
  - intros i num k t En HP. destruct (H1 i num k t En HP) as [A B], (H3 i num k t En HP) as [C D]. split; [congruence|].
    intros Hk. rewrite (D Hk). exact (B Hk).
  - intros j ms En HP. rewrite (H4 j ms En HP). exact (H2 j ms En HP).
Qed.

Lemma kept_weaken (P Q : Z -> Prop) fs os v v' : (forall n, P n -> Q n) -> kept P fs os v v' -> kept Q fs os v v'.
Proof.
  intros HPQ. destruct v, v'; cbn [kept]; auto. intros [H1 H2]. split.
  - intros i num k t En HQ. apply (H1 i num k t En). auto.
  - intros j ms En HQ. apply (H2 j ms En). intros num t El HP. apply (HQ num t El). auto.
Qed.

(** The record with field number [id] changes only field [id], whatever the buffer does. *)
Lemma dispatch_kept fuel fs os id w S (R : rops S) v s e v' s' :
  msg_dispatch fuel (dtab fuel fs) (dotab fuel os) id w R v s = Done (e, v', s') -> kept (eq id) fs os v v'.
Proof.
  intros H. destruct v as [| | | |pres vs ovs]; try discriminate. cbn [msg_dispatch] in H.
  destruct (find_field (dtab fuel fs) 0 0 id) as [[[p oi] f]|] eqn:Ef.
  - apply find_field_inv in Ef. destruct Ef as (i & k & t & Ep & Eo & En & ->). rewrite Z.add_0_l in Eo. cbn [Nat.add] in Ep. subst oi p.
    inv_bind H x. inv_bind H q. destruct q as [[[e1 pres1] x1] s1]. inv_bind H vs1. injection H as <- <- <-.
    apply aset_Done in Heqr1. destruct Heqr1 as [-> _]. rewrite Nat2Z.id. cbn [kept]. split; [|auto].
    intros j num k' t' Ej Hne. assert (Hij : i <> j). { intros ->. rewrite En in Ej. injection Ej as Ej _ _. auto. }
    split; [apply nth_error_upd_other; exact Hij|]. intros ->.
    cbn [field_deserialize] in Heqr0. destruct k as [| |max|]; try (inv_bind Heqr0 p; destruct p as [[e2 v2] s2]; injection Heqr0 as <- <- <- <-; reflexivity).
    + inv_bind Heqr0 pr. destruct (presence_set_mono _ _ _ Heqr1 (optix_nonneg _ _)) as [_ Hb].
      inv_bind Heqr0 p. destruct p as [[e2 v2] s2]. injection Heqr0 as <- <- <- <-. apply Hb; [apply optix_nonneg|].
      intros E. apply Hij. symmetry. eapply optix_inj; eauto.
    + injection Heqr0 as <- <- <- <-. reflexivity.
  - destruct (find_oneof (dotab fuel os) 0 id) as [[p dms]|] eqn:Eo.
    + apply find_oneof_inv in Eo. destruct Eo as (j & ms & t & Ep & En & El & ->). cbn [Nat.add] in Ep. subst p.
      inv_bind H o. inv_bind H q. destruct q as [[e1 o1] s1]. inv_bind H ovs1. injection H as <- <- <-.
      apply aset_Done in Heqr1. destruct Heqr1 as [-> _]. rewrite Nat2Z.id. cbn [kept]. split; [auto|].
      intros j' ms' Ej Hne. apply nth_error_upd_other. intros <-. rewrite En in Ej. injection Ej as <-. exact (Hne id t El eq_refl).
    + destruct (id =? 0); [injection H as <- <- <-; apply kept_refl|]. inv_bind H q. destruct q as [e1 s1].
      injection H as <- <- <-. apply kept_refl.
Qed.

(** The same in terms of what the accessors show. *)
Lemma kept_view P fs os v v' : wt (EMsg fs os) v -> kept P fs os v v' ->
  exists vs ovs vs' ovs', view (EMsg fs os) v = SvM vs ovs /\ view (EMsg fs os) v' = SvM vs' ovs'
  /\ (forall i num k t, nth_error fs i = Some (num, k, t) -> ~ P num -> nth_error vs' i = nth_error vs i)
  /\ (forall j ms, nth_error os j = Some ms -> (forall num t, lookup ms num = Some t -> ~ P num) -> nth_error ovs' j = nth_error ovs j).
Proof.
  intros Hw H. destruct v as [| | | |pres vs ovs]; try contradiction. destruct v' as [| | | |pres' vs' ovs']; try contradiction.
  destruct H as [H1 H2]. rewrite !view_tab. do 4 eexists. split; [reflexivity|]. split; [reflexivity|].
  cbn [wt] in Hw. destruct Hw as (_ & _ & Hw1 & Hw2). split.
  - intros i num k t En HP. destruct (H1 i num k t En HP) as [E1 E2].
    destruct (all2_nth _ _ _ _ _ Hw1 En) as (x & Ex & _).
    rewrite (view_fields_nth_fwd fs i 0 pres vs num k t x En Ex), (view_fields_nth_fwd fs i 0 pres' vs' num k t x En) by congruence.
    rewrite !Z.add_0_l. destruct k; try reflexivity. cbn [view_field]. now rewrite (E2 eq_refl).
  - intros j ms En HP. specialize (H2 j ms En HP). destruct (all2_nth _ _ _ _ _ Hw2 En) as (o & Eo & _).
    assert (Hn : forall ovs, nth_error ovs j = Some o -> nth_error (view_oneofs (votab os) ovs) j = Some (view_oneof (map (fun '(num, t) => (num, view t)) ms) o)).
    { clear - En. revert j En. induction os as [|m os IH]; intros [|j] En [|y ovs] E; try discriminate.
      - cbn in En, E. injection En as ->. injection E as ->. reflexivity.
      - cbn [nth_error] in *. cbn [votab map view_oneofs nth_error]. apply IH; assumption. }
    rewrite (Hn ovs Eo), (Hn ovs') by congruence. reflexivity.
Qed.

Lemma one_record : forall fs os v, let m := EMsg fs os in desc_ok m -> wt m v ->
  forall S (R : rops S) s w num fuel e v' s',
  msg_dispatch fuel (dtab fuel fs) (dotab fuel os) num w R v s = Done (e, v', s') ->
  exists vs ovs vs' ovs', view m v = SvM vs ovs /\ view m v' = SvM vs' ovs'
  /\ (forall i num' k t, nth_error fs i = Some (num', k, t) -> num' <> num -> nth_error vs' i = nth_error vs i)
  /\ (forall j ms, nth_error os j = Some ms -> lookup ms num = None -> nth_error ovs' j = nth_error ovs j).
Proof.
  intros fs os v m Hd Hw S R s w num fuel e v' s' H. apply dispatch_kept in H.
  destruct (kept_view _ _ _ _ _ Hw H) as (vs & ovs & vs' & ovs' & E1 & E2 & H1 & H2).
  exists vs, ovs, vs', ovs'. split; [exact E1|]. split; [exact E2|]. split.
  - intros i num' k t En Hne. apply (H1 i num' k t En). congruence.
  - intros j ms En El. apply (H2 j ms En). intros n t El' <-. congruence.
Qed.

(** The invariant of a fixed-size buffer, with its contents. *)
Definition holds (bytes : list Z) (b : rfix) (m : nat) : Prop := rfix_inv (zlen bytes) b m /\ rf_data b = bytes /\ rf_w b = zlen bytes.

Lemma holds_safe bytes : reader_safe (rfix_ops (zlen bytes)) (holds bytes) False.
Proof.
  constructor.
  - intros s m (Hi & Hd & Hw). destruct (rs_pop _ _ _ (rfix_safe (zlen bytes)) s m Hi) as (ob & s' & m' & E & Hi' & Hb).
    exists ob, s', m'. split; [exact E|]. split; [|exact Hb]. split; [exact Hi'|].
    cbn [rfix_ops r_pop] in E. unfold rfix_pop in E. destruct (rf_r s <? rf_w s).
    + inv_bind E y. injection E as _ <-. auto.
    + injection E as _ <-. auto.
  - intros s m n (Hi & Hd & Hw) Hn. destruct (rs_advance_n _ _ _ (rfix_safe (zlen bytes)) s m n Hi Hn) as (k & s' & m' & E & Hi' & Hb).
    exists k, s', m'. split; [exact E|]. split; [|exact Hb]. split; [exact Hi'|].
    cbn [rfix_ops r_advance_n] in E. unfold rfix_advance_n in E. destruct (_ <=? _); injection E as _ <-; auto.
Qed.

Lemma holds_decoder bytes : decoder_safe (rfix_ops (zlen bytes)) (holds bytes) False (2 ^ 32 - 1).
Proof.
  apply reader_safe_decoder; [apply holds_safe|]. intros s m ((H1 & H2 & H3 & H4 & _) & _). cbn [rfix_ops r_get_size]. lia.
Qed.

(** A tag that is read is mentioned. *)
Lemma tag_mentioned bytes s m w id s1 : holds bytes s m ->
  DeserializeTag (rfix_ops (zlen bytes)) s = Done (NoErrors, Some (w, id), s1) -> mentions bytes id.
Proof.
  intros ((Hl & Hc & Hr & Hw & Hb & Hm) & Hd & Hz) H.
  assert (Hrel : rfix_rel (zlen bytes) s (firstn (Z.to_nat (rf_w s - rf_r s)) (skipn (Z.to_nat (rf_r s)) (rf_data s)))) by (unfold rfix_rel; tauto).
  rewrite Hd in Hrel. rewrite firstn_all2 in Hrel by (rewrite skipn_length; unfold zlen in *; lia).
  unfold DeserializeTag in H.
  destruct (varint_reader_total _ _ _ 32 (rfix_ok (zlen bytes)) (or_introl eq_refl) s _ Hrel)
    as [(c & rest & s2 & El & Hc' & E & _)|[(hd & rest & s2 & El & _ & _ & E & _)|(s2 & _ & _ & E & _)]]; rewrite E in H; cbn [bind] in H; try discriminate.
  destruct (Z.leb_spec (Z.land (varint_value c mod 2 ^ 32) 7) (wt_code FIXED32)) as [Hle|]; [|discriminate]. injection H as Ew Ei _.
  exists (firstn (Z.to_nat (rf_r s)) bytes), c, rest, w. split.
  - rewrite <- El. symmetry. apply firstn_skipn.
  - split; [exact Hc'|]. rewrite <- Ei, <- Ew. rewrite land_7 in *. rewrite Z.shiftr_div_pow2 by lia. change (2 ^ 3) with 8.
    set (x := varint_value c mod 2 ^ 32) in *. pose proof (Z.mod_pos_bound x 8 ltac:(lia)) as H8. cbn [wt_code] in Hle.
    assert (Hcode : forall z, 0 <= z <= 5 -> wt_code (wt_of_code z) = z).
    { intros z Hz5. assert (z = 0 \/ z = 1 \/ z = 2 \/ z = 3 \/ z = 4 \/ z = 5) as [->|[->|[->|[->|[->| ->]]]]] by lia; reflexivity. }
    rewrite Hcode by lia. lia.
Qed.

Lemma loop_kept fuel0 fs os bytes : desc_ok (EMsg fs os) -> forall n v s m e v' s', holds bytes s m -> wt (EMsg fs os) v ->
  msg_loop fuel0 n (dtab fuel0 fs) (dotab fuel0 os) (rfix_ops (zlen bytes)) v s = Done (e, v', s') ->
  wt (EMsg fs os) v' /\ kept (mentions bytes) fs os v v'.
Proof.
  intros Hok. assert (Hf : Forall (fun f : fdesc => deser_ok fuel0 (snd f)) fs) by (apply Forall_forall; intros; apply deserialize_safe).
  assert (Ho : Forall (Forall (fun p : Z * ety => deser_ok fuel0 (snd p))) os)
    by (apply Forall_forall; intros; apply Forall_forall; intros; apply deserialize_safe).
  induction n as [|n IH]; intros v s m e v' s' Hi Hw H; cbn [msg_loop] in H; [discriminate|].
  assert (Hz : wt (EMsg fs os) v /\ kept (mentions bytes) fs os v v)
    by (split; [exact Hw|]; destruct v as [| | | |pres vs ovs]; try contradiction; apply kept_refl).
  destruct (tag_safe (ds_pop _ _ _ _ (holds_decoder bytes)) s m Hi) as (te & o & s1 & m1 & Et & Hi1 & _ & _ & _ & Hx).
  rewrite Et in H. cbn [bind] in H. destruct te; [destruct Hx as ([w id] & -> & _)|injection H as <- <- <-; exact Hz..].
  pose proof (tag_mentioned _ _ _ _ _ _ Hi Et) as Hm.
  pose proof (dispatch_safe (holds_decoder bytes) fuel0 fs os id w v s1 m1 Hf Ho Hok Hi1 Hw) as Hs.
  inv_bind H q. destruct q as [[e1 v1] s2]. cbn [out_ok] in Hs. destruct Hs as (Hw1 & m2 & Hi2 & _). unfold no_post in Hw1.
  apply dispatch_kept in Heqr. apply (kept_weaken _ (mentions bytes)) in Heqr; [|intros ? <-; exact Hm].
  destruct (is_ok e1); [|injection H as <- <- <-; auto].
  destruct (IH v1 s2 m2 e v' s' Hi2 Hw1 H) as [A B]. split; [exact A|]. eapply kept_trans; eauto.
Qed.

Lemma unmentioned_kept : forall fs os v bytes, let m := EMsg fs os in desc_ok m -> wt m v -> Forall is_byte bytes -> zlen bytes < 2 ^ 32 ->
  forall fuel e v' s', deserialize fuel m rfix (rfix_ops (zlen bytes)) v (rfix_of bytes) = Done (e, v', s') ->
  exists vs ovs vs' ovs', view m v = SvM vs ovs /\ view m v' = SvM vs' ovs'
  /\ (forall i num k t, nth_error fs i = Some (num, k, t) -> ~ mentions bytes num -> nth_error vs' i = nth_error vs i)
  /\ (forall j ms, nth_error os j = Some ms -> (forall num t, lookup ms num = Some t -> ~ mentions bytes num) ->
        nth_error ovs' j = nth_error ovs j).
Proof.
  intros fs os v bytes m Hd Hw Hb Hz fuel e v' s' H. unfold m in *. cbn [deserialize] in H.
  change (msg_loop fuel fuel (dtab fuel fs) (dotab fuel os) (rfix_ops (zlen bytes)) v (rfix_of bytes) = Done (e, v', s')) in H.
  assert (Hi : holds bytes (rfix_of bytes) (length bytes)).
  { split; [|auto]. pose proof (zlen_nonneg bytes). unfold rfix_inv, rfix_of; cbn [rf_data rf_w rf_r]. repeat split; auto; unfold zlen; lia. }
  destruct (loop_kept fuel fs os bytes Hd fuel v _ _ e v' s' Hi Hw H) as [_ Hk]. apply kept_view; assumption.
Qed.

Lemma none_mentioned : forall fs os v bytes, let m := EMsg fs os in desc_ok m -> wt m v -> Forall is_byte bytes -> zlen bytes < 2 ^ 32 ->
  (forall num, In num (field_numbers fs os) -> ~ mentions bytes num) ->
  forall fuel e v' s', deserialize fuel m rfix (rfix_ops (zlen bytes)) v (rfix_of bytes) = Done (e, v', s') -> v' = v.
Proof.
  intros fs os v bytes m Hd Hw Hb Hz Hn fuel e v' s' H. unfold m in *. cbn [deserialize] in H.
  change (msg_loop fuel fuel (dtab fuel fs) (dotab fuel os) (rfix_ops (zlen bytes)) v (rfix_of bytes) = Done (e, v', s')) in H.
  assert (Hi : holds bytes (rfix_of bytes) (length bytes)).
  { split; [|auto]. pose proof (zlen_nonneg bytes). unfold rfix_inv, rfix_of; cbn [rf_data rf_w rf_r]. repeat split; auto; unfold zlen; lia. }
  assert (Hall : forall n s m0, holds bytes s m0 ->
    msg_loop fuel n (dtab fuel fs) (dotab fuel os) (rfix_ops (zlen bytes)) v s = Done (e, v', s') -> v' = v); [|exact (Hall _ _ _ Hi H)].
  clear - Hd Hw Hn. induction n as [|n IH]; intros s m0 Hi H; cbn [msg_loop] in H; [discriminate|].
  destruct (tag_safe (ds_pop _ _ _ _ (holds_decoder bytes)) s m0 Hi) as (te & o & s1 & m1 & Et & Hi1 & _ & _ & _ & Hx).
  rewrite Et in H. cbn [bind] in H. destruct te; [destruct Hx as ([w id] & -> & _)|injection H as <- <- <-; reflexivity..].
  pose proof (tag_mentioned _ _ _ _ _ _ Hi Et) as Hm.
  assert (Hf : Forall (fun f : fdesc => deser_ok fuel (snd f)) fs) by (apply Forall_forall; intros; apply deserialize_safe).
  assert (Ho : Forall (Forall (fun p : Z * ety => deser_ok fuel (snd p))) os)
    by (apply Forall_forall; intros; apply Forall_forall; intros; apply deserialize_safe).
  pose proof (dispatch_safe (holds_decoder bytes) fuel fs os id w v s1 m1 Hf Ho Hd Hi1 Hw) as Hs.
  inv_bind H q. destruct q as [[e1 v1] s2]. cbn [out_ok] in Hs. destruct Hs as (_ & m2 & Hi2 & _).
  assert (v1 = v).
  { destruct v as [| | | |pres vs ovs]; try contradiction. cbn [msg_dispatch] in Heqr.
    destruct (find_field (dtab fuel fs) 0 0 id) as [[[p oi] f]|] eqn:Ef.
    - exfalso. apply find_field_inv in Ef. destruct Ef as (i & k & t & _ & _ & En & _). apply (Hn id); [|exact Hm].
      unfold field_numbers. apply in_or_app. left. apply nth_error_In in En. apply in_map_iff. eexists. split; [|exact En]. reflexivity.
    - destruct (find_oneof (dotab fuel os) 0 id) as [[p dms]|] eqn:Eo.
      + exfalso. apply find_oneof_inv in Eo. destruct Eo as (j & ms & t & _ & En & El & _). apply (Hn id); [|exact Hm].
        unfold field_numbers. apply in_or_app. right. apply in_flat_map. exists ms. split.
        * eapply nth_error_In; exact En.
        * apply lookup_In in El. change id with (fst (id, t)). apply in_map. exact El.
      + destruct (id =? 0); [injection Heqr as _ <- _; reflexivity|]. inv_bind Heqr q. destruct q as [e2 s3]. injection Heqr as _ <- _. reflexivity. }
  subst v1. destruct (is_ok e1); [|injection H as _ <- _; reflexivity]. exact (IH s2 m2 Hi2 H).
Qed.

(** C36: the flags after one record, whatever the buffer and the outcome. *)
Lemma record_flags : forall fs os v, let m := EMsg fs os in desc_ok m -> wt m v ->
  forall S (R : rops S) s w num fuel e v' s',
  msg_dispatch fuel (dtab fuel fs) (dotab fuel os) num w R v s = Done (e, v', s') ->
  forall pos num' t, nth_error fs pos = Some (num', KOpt, t) ->
  has_field fs v' pos = if num' =? num then Done true else has_field fs v pos.
Proof.
  intros fs os v m Hd Hw S R s w num fuel e v' s' H pos num' t Hp. unfold m in *. pose proof (dispatch_kept _ _ _ _ _ _ _ _ _ _ _ _ H) as Hk.
  destruct v as [| | | |pres vs ovs]; try contradiction. pose proof (dispatch_flags _ _ _ _ _ _ _ _ _ _ _ _ _ _ H) as Hl.
  destruct v' as [| | | |pres' vs' ovs']; try contradiction. destruct Hl as [Hl _].
  assert (Hz : zlen pres = presence_size (n_optional fs)) by (cbn [wt] in Hw; tauto).
  pose proof (optix_bound fs pos num' t Hp) as Hb. unfold has_field. rewrite Hp, opt_index_optix.
  rewrite (presence_has_ok pres _ _ Hb Hz), (presence_has_ok pres' _ (n_optional fs) Hb) by (unfold zlen in *; lia).
  destruct (Z.eqb_spec num' num) as [->|Hne].
  - f_equal. cbn [msg_dispatch] in H. rewrite (desc_find_field fuel fs os pos num KOpt t Hd Hp) in H.
    inv_bind H x. cbn [field_deserialize] in H. inv_bind H q. destruct q as [[[e1 pres1] x1] s1]. inv_bind Heqr0 pr. 
    destruct (presence_set_mono _ _ _ Heqr1 (optix_nonneg _ _)) as [Ha _]. inv_bind Heqr0 q. destruct q as [[e2 x2] s2]. injection Heqr0 as _ <- _ _.
    inv_bind H vs1. injection H as _ <- _ _ _. exact Ha.
  - f_equal. destruct Hk as [Hk _]. destruct (Hk pos num' KOpt t Hp) as [_ E]; [congruence|]. exact (E eq_refl).
Qed.
