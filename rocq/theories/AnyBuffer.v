(** Facts about decoding that hold for every read buffer, also one that breaks its contract: nothing is
    assumed about the functions of the buffer. *)
From Verif Require Import Base Buffers Wire Schema Fields Message Api Spec BitLemmas Struct Tables DecodeProofs TidyProofs ApiProofs SerProofs.
From Coq Require Import ZifyBool ZifyNat ZifyN.
Ltac Zify.zify_post_hook ::= Z.div_mod_to_equations.

(** The presence flags of [v'] include those of [v]. *)
Definition flags_kept (v v' : value) : Prop :=
  match v, v' with
  | VM pres _ _, VM pres' _ _ => length pres' = length pres /\ forall i, 0 <= i -> present pres i = true -> present pres' i = true
  | _, _ => False
  end.

Lemma presence_set_length pres i pres' : presence_set pres i = Done pres' -> length pres' = length pres.
Proof. unfold presence_set. intros H. inv_bind H w. apply aset_Done in H. destruct H as [-> _]. apply length_upd. Qed.

Lemma field_flags fuel num k t d oi w pres v S (R : rops S) s e pres' v' s' : 0 <= oi ->
  field_deserialize fuel (num, k, t, d) oi w pres v R s = Done (e, pres', v', s') ->
  length pres' = length pres /\ forall i, 0 <= i -> present pres i = true -> present pres' i = true.
Proof.
  intros Hoi H. cbn [field_deserialize] in H. destruct k as [| |max|].
  - inv_bind H p. destruct p as [[e1 v1] s1]. injection H as <- <- <- <-. auto.
  - inv_bind H pr. destruct (presence_set_mono _ _ _ Heqr Hoi) as [Ha Hb]. apply presence_set_length in Heqr.
    inv_bind H p. destruct p as [[e1 v1] s1]. injection H as <- <- <- <-. split; [exact Heqr|]. intros i Hi E.
    destruct (Z.eq_dec i oi) as [->|Hne]; [exact Ha|now rewrite Hb].
  - inv_bind H p. destruct p as [[e1 v1] s1]. injection H as <- <- <- <-. auto.
  - injection H as <- <- <- <-. auto.
Qed.

Lemma dispatch_flags fuel fs os id w S (R : rops S) pres vs ovs s e v' s' :
  msg_dispatch fuel (dtab fuel fs) (dotab fuel os) id w R (VM pres vs ovs) s = Done (e, v', s') ->
  flags_kept (VM pres vs ovs) v'.
Proof.
  intros H. cbn [msg_dispatch] in H. destruct (find_field (dtab fuel fs) 0 0 id) as [[[p oi] f]|] eqn:Ef.
  - apply find_field_inv in Ef. destruct Ef as (i & k & t & Ep & Eo & En & ->). rewrite Z.add_0_l in Eo. subst oi.
    inv_bind H x. inv_bind H q. destruct q as [[[e1 pres1] x1] s1]. inv_bind H vs1. injection H as <- <- <-.
    cbn [flags_kept]. eapply field_flags; [|exact Heqr0]. apply optix_nonneg.
  - destruct (find_oneof (dotab fuel os) 0 id) as [[p dms]|].
    + inv_bind H o. inv_bind H q. destruct q as [[e1 o1] s1]. inv_bind H ovs1. injection H as <- <- <-. cbn [flags_kept]. auto.
    + destruct (id =? 0); [injection H as <- <- <-; cbn [flags_kept]; auto|]. inv_bind H q. destruct q as [e1 s1].
      injection H as <- <- <-. cbn [flags_kept]. auto.
Qed.

Lemma loop_flags fuel0 fs os S (R : rops S) : forall n pres vs ovs s e v' s',
  msg_loop fuel0 n (dtab fuel0 fs) (dotab fuel0 os) R (VM pres vs ovs) s = Done (e, v', s') ->
  flags_kept (VM pres vs ovs) v'.
Proof.
  induction n as [|n IH]; intros pres vs ovs s e v' s' H; cbn [msg_loop] in H; [discriminate|].
  inv_bind H p. destruct p as [[te ot] s1].
  assert (Hz : flags_kept (VM pres vs ovs) (VM pres vs ovs)) by (cbn [flags_kept]; auto).
  destruct te; try (injection H as <- <- <-; exact Hz). destruct ot as [[w id]|]; [|injection H as <- <- <-; exact Hz].
  inv_bind H q. destruct q as [[e1 v1] s2]. apply dispatch_flags in Heqr0.
  destruct (is_ok e1); [|injection H as <- <- <-; exact Heqr0].
  destruct v1 as [| | | |pres1 vs1 ovs1]; try contradiction. apply IH in H. destruct v' as [| | | |pres2 vs2 ovs2]; try contradiction.
  cbn [flags_kept] in *. destruct H as [H1 H2], Heqr0 as [H3 H4]. split; [congruence|]. auto.
Qed.

(** C36: decoding never resets a flag. *)
Lemma decode_keeps_flags : forall fs os v, let m := EMsg fs os in desc_ok m -> wt m v ->
  forall S (R : rops S) s fuel e v' s', deserialize fuel m S R v s = Done (e, v', s') ->
  forall pos num t, nth_error fs pos = Some (num, KOpt, t) ->
  has_field fs v pos = Done true -> has_field fs v' pos = Done true.
Proof.
  intros fs os v m Hd Hw S R s fuel e v' s' H pos num t Hp Hh.
  unfold m in *. cbn [deserialize] in H. change (msg_loop fuel fuel (dtab fuel fs) (dotab fuel os) R v s = Done (e, v', s')) in H.
  destruct v as [| | | |pres vs ovs]; try contradiction. apply loop_flags in H. destruct v' as [| | | |pres' vs' ovs']; try contradiction.
  cbn [flags_kept] in H. destruct H as [Hl Hk]. unfold has_field in *. rewrite Hp in *. rewrite opt_index_optix in *.
  assert (Hz : zlen pres = presence_size (n_optional fs)) by (cbn [wt] in Hw; tauto).
  pose proof (optix_bound fs pos num t Hp) as Hb.
  rewrite (presence_has_ok pres _ _ Hb Hz) in Hh. rewrite (presence_has_ok pres' _ (n_optional fs) Hb) by (unfold zlen in *; lia).
  injection Hh as Hh. rewrite Hk; auto. lia.
Qed.

(** C38: when the record of a member fails, decoding ends with that error and the oneof is not set. *)
Lemma oneof_deserialize_fails ms id w o S (R : rops S) s e o' s' :
  oneof_deserialize ms id w o R s = Done (e, o', s') -> e <> NoErrors -> fst o' = 0.
Proof.
  intros H He. unfold oneof_deserialize in H. inv_bind H p. destruct p as [[e2 o2] s2]. injection H as <- <- <-.
  destruct e2; try congruence; cbn [is_ok]; unfold oneof_clear; destruct (find_member ms (fst o2)) as [[? ?]|]; reflexivity.
Qed.

Lemma oneof_fails_unset : forall fs os v, let m := EMsg fs os in desc_ok m -> wt m v ->
  forall S (R : rops S) s w num s1, DeserializeTag R s = Done (NoErrors, Some (w, num), s1) ->
  forall j ms t, nth_error os j = Some ms -> lookup ms num = Some t ->
  forall fuel e v' s', (0 < fuel)%nat ->
  msg_dispatch fuel (dtab fuel fs) (dotab fuel os) num w R v s1 = Done (e, v', s') -> e <> NoErrors ->
  deserialize fuel m S R v s = Done (e, v', s') /\ which_oneof v' j = Done 0
  /\ forall id t', lookup ms id = Some t' -> has_member v' j id = Done false.
Proof.
  intros fs os v m Hd Hw S R s w num s1 Htag j ms t Hj Hl fuel e v' s' Hf H He. split.
  - unfold m. cbn [deserialize]. change (msg_loop fuel fuel (dtab fuel fs) (dotab fuel os) R v s = Done (e, v', s')).
    revert Hf. generalize fuel at 1 3 as n. intros n Hn. destruct n as [|n]; [lia|]. cbn [msg_loop]. rewrite Htag. cbn [bind].
    rewrite H. cbn [bind].
    destruct e; try congruence; reflexivity.
  - destruct v as [| | | |pres vs ovs]; try contradiction. cbn [msg_dispatch] in H.
    destruct (desc_find_oneof fuel fs os j ms num t Hd Hj Hl) as [E1 E2]. rewrite E1, E2 in H.
    inv_bind H o. inv_bind H q. destruct q as [[e1 o1] s2]. inv_bind H ovs1. injection H as <- <- <-.
    apply oneof_deserialize_fails in Heqr0; [|exact He]. apply aset_Done in Heqr1. destruct Heqr1 as [-> Hr].
    unfold has_member, which_oneof. rewrite Nat2Z.id in *.
    assert (Hn : aget (upd j o1 ovs) (Z.of_nat j) = Done o1).
    { apply aget_nat. apply nth_error_upd_same. unfold zlen in Hr. lia. }
    rewrite Hn. cbn [bind]. rewrite Heqr0. split; [reflexivity|]. intros id t' El.
    destruct (desc_member fs os j ms id t' Hd Hj El) as [_ Hid]. destruct (Z.eqb_spec id 0); [lia|reflexivity].
Qed.
