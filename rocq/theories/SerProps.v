(** Lemmas behind the serialization properties (C16-C19, C45). *)
From Verif Require Import Base Buffers Wire Schema Fields Message Spec Contracts BitLemmas WriteProofs
  ReadProofs ScalarProofs BufferProofs Struct SerProofs.
From Verif Require Export SpecWrite.
From Coq Require Import ZifyBool ZifyNat ZifyN.
Ltac Zify.zify_post_hook ::= Z.div_mod_to_equations.

Lemma msg_serialize_wrote fs os v S (W : wops S) rel exact s c room :
  wt (EMsg fs os) v -> desc_ok (EMsg fs os) -> zlen (enc (EMsg fs os) (view (EMsg fs os) v)) < 2 ^ 32 ->
  writer_ok W rel exact -> rel s c room ->
  wrote rel c room (enc (EMsg fs os) (view (EMsg fs os) v)) (exact \/ no_bytes (EMsg fs os))
    (serialize (EMsg fs os) v S W s).
Proof. intros. eapply serialize_wrote; eauto. Qed.

(** C16 *)
Lemma size_is_written fs os v : let t := EMsg fs os in
  wt t v -> desc_ok t -> zlen (enc t (view t v)) < 2 ^ 32 ->
  exists n, serialized_size (serialize t v) = Done n
  /\ forall S (W : wops S) rel exact, writer_ok W rel exact -> forall s c room s', rel s c room ->
     serialize t v S W s = Done (NoErrors, s') ->
     exists bs, rel s' (c ++ bs) (option_map (fun a => a - n) room) /\ zlen bs = n.
Proof.
  intros t Hw Hd Hl. exists (zlen (enc t (view t v))). split; [now apply serialized_size_enc|].
  intros S W rel exact ok s c room s' Hr E.
  destruct (msg_serialize_wrote fs os v S W rel exact s c room Hw Hd Hl ok Hr) as (e & s1 & E1 & H).
  fold t in E1. rewrite E1 in E. injection E as -> ->. destruct H as [(_ & H & _)|([=] & _)].
  exists (enc t (view t v)). auto.
Qed.

(** C17 *)
Lemma exact_space_partial fs os v cap b c n : let t := EMsg fs os in
  wt t v -> desc_ok t -> wfix_rel cap b c (Some n) ->
  forall size, serialized_size (serialize t v) = Done size -> zlen (enc t (view t v)) < 2 ^ 32 ->
  exists e b', serialize t v wfix (wfix_ops cap) b = Done (e, b')
  /\ (size < n -> e = NoErrors) /\ (size = n -> no_bytes t -> e = NoErrors)
  /\ (n < size -> e = BufferFull).
Proof.
  intros t Hw Hd Hr size Hs Hl. unfold t in *. rewrite (serialized_size_enc _ v Hw Hd Hl) in Hs.
  assert (size = zlen (enc (EMsg fs os) (view (EMsg fs os) v))) by congruence. subst size. clear Hs.
  destruct (msg_serialize_wrote fs os v _ _ _ _ b c (Some n) Hw Hd Hl (wfix_ok cap) Hr)
    as (e & s1 & E1 & [(-> & H & Hn)|(-> & m & pre & suf & [= <-] & Eb & Hsuf & H & Hp & Ht)]).
  - exists NoErrors, s1. split; [exact E1|]. split; [auto|]. split; [auto|].
    specialize (Hn n eq_refl). intros Hx. exfalso. lia.
  - exists BufferFull, s1. split; [exact E1|]. split; [intros; exfalso; lia|]. split; [|auto].
    intros En Hnb. specialize (Ht (or_intror Hnb)). exfalso; lia.
Qed.

Definition string_msg : ety := EMsg [(1, KPlain, EBytes true 4)] [].
Definition string_msg_a : value := VM [] [VB 1 [97; 0; 0; 0]] [].

Lemma string_msg_ok : desc_ok string_msg /\ wt string_msg string_msg_a.
Proof.
  split; cbn.
  - split; [repeat constructor; cbn; tauto|]. unfold capacity_ok. repeat split; lia.
  - unfold is_byte. repeat split; lia.
Qed.

Lemma exact_space_refuted : ~ (forall fs os v cap, let t := EMsg fs os in
  wt t v -> desc_ok t -> zlen (enc t (view t v)) < 2 ^ 32 -> 0 <= cap <= 2 ^ 31 ->
  forall size, serialized_size (serialize t v) = Done size -> size <= cap ->
  exists b', serialize t v wfix (wfix_ops cap) (wfix_init cap) = Done (NoErrors, b')).
Proof.
  intros H. destruct string_msg_ok as (Hd & Hw).
  destruct (H _ _ string_msg_a 3 Hw Hd) with (size := 3) as (b' & E);
    [vm_compute; reflexivity|lia|vm_compute; reflexivity|lia|]. vm_compute in E. discriminate E.
Qed.

(** C18 *)
Lemma prefix_or_all fs os v : let t := EMsg fs os in
  wt t v -> desc_ok t -> zlen (enc t (view t v)) < 2 ^ 32 ->
  forall S (W : wops S) rel exact, writer_ok W rel exact -> forall s c room, rel s c room ->
  exists e s', serialize t v S W s = Done (e, s') /\
    ((e = NoErrors /\ rel s' (c ++ enc t (view t v)) (option_map (fun n => n - zlen (enc t (view t v))) room))
     \/ (e = BufferFull /\ exists pre suf n, enc t (view t v) = pre ++ suf /\ suf <> []
         /\ room = Some n /\ rel s' (c ++ pre) (Some (n - zlen pre)))).
Proof.
  intros t Hw Hd Hl S W rel exact ok s c room Hr.
  destruct (msg_serialize_wrote fs os v _ _ _ _ s c room Hw Hd Hl ok Hr)
    as (e & s1 & E1 & [(-> & H & Hn)|(-> & m & pre & suf & -> & Eb & Hsuf & H & Hp & Ht)]).
  - exists NoErrors, s1. split; [exact E1|]. left. auto.
  - exists BufferFull, s1. split; [exact E1|]. right. split; [reflexivity|]. exists pre, suf, m. auto.
Qed.

(** C19 *)
Lemma serialize_is_enc fs os v : let t := EMsg fs os in
  wt t v -> desc_ok t -> zlen (enc t (view t v)) < 2 ^ 32 ->
  forall cap b c n, wfix_rel cap b c (Some n) -> forall b',
  serialize t v wfix (wfix_ops cap) b = Done (NoErrors, b') ->
  wfix_content b' = wfix_content b ++ enc t (view t v).
Proof.
  intros t Hw Hd Hl cap b c n Hr b' E.
  destruct (msg_serialize_wrote fs os v _ _ _ _ b c (Some n) Hw Hd Hl (wfix_ok cap) Hr) as (e & s1 & E1 & H).
  fold t in E1. rewrite E1 in E. injection E as -> ->. destruct H as [(_ & H & _)|([=] & _)].
  destruct Hr as (_ & _ & _ & _ & Hc & _). destruct H as (_ & _ & _ & _ & H & _).
  unfold wfix_content. rewrite <- H, <- Hc. reflexivity.
Qed.

(* ------------------------------------------------------------------------------------------- *)
(** ** C45 *)

Section Track.
Context {S : Type} (W : wops S) (st : sticky W).

(** "reported success implies nothing was refused" *)
Definition honest (r : res (err * (S * bool))) : Prop :=
  forall s' f, r = Done (NoErrors, (s', f)) -> f = false.

Lemma honest_bind (r : res (err * (S * bool))) k :
  honest r -> (forall s', honest (k (s', false))) ->
  honest (let* (e, s') := r in if is_ok e then k s' else Done (e, s')).
Proof.
  intros Hr Hk s' f E. destruct r as [[e [s1 f1]]| |]; cbn [bind] in E; try discriminate.
  destruct e; cbn [is_ok] in E; try discriminate. assert (f1 = false) by (eapply Hr; reflexivity). subst f1.
  eapply Hk; eauto.
Qed.

Lemma honest_ok s : honest (Done (NoErrors, (s, false))).
Proof. intros s' f [= _ <-]. reflexivity. Qed.
Lemma honest_full s f : honest (Done (BufferFull, (s, f))).
Proof. intros s' f' [=]. Qed.

Lemma SerializeVarint_loop_track n : forall v s mf v' m' s' f',
  SerializeVarint_loop (track W) n v mf (s, false) = Done (v', m', (s', f')) ->
  f' = false \/ (forall b ok s'', w_push W s' b = Done (ok, s'') -> ok = false).
Proof.
  induction n as [|n IH]; intros v s mf v' m' s' f'; cbn [SerializeVarint_loop].
  - destruct (_ && _); [discriminate|]. intros [= _ _ _ <-]. now left.
  - destruct (_ && _); [|intros [= _ _ _ <-]; now left].
    cbn [track w_push fst snd orb]. destruct (w_push W s _) as [[[] s1]| |] eqn:Ep; cbn [bind]; try discriminate.
    + intros E. eapply IH. cbn [negb] in E. exact E.
    + cbn [negb]. destruct n; cbn [SerializeVarint_loop]; rewrite andb_false_r; intros [= _ _ <- <-];
        right; intros; eapply st; eauto.
Qed.

Lemma SerializeVarint_honest v s : honest (SerializeVarint (track W) v (s, false)).
Proof.
  intros s' f E. unfold SerializeVarint in E.
  destruct (SerializeVarint_loop (track W) 10 v true (s, false)) as [[[v' m'] [s1 f1]]| |] eqn:El; cbn [bind] in E; try discriminate.
  apply SerializeVarint_loop_track in El.
  cbn [track w_push fst snd] in E. destruct (w_push W s1 (u8 v')) as [[ok s2]| |] eqn:Ep; cbn [bind] in E; try discriminate.
  destruct ok; [|discriminate E]. injection E as <- <-. cbn [negb]. rewrite orb_false_r.
  destruct El as [->|El]; [reflexivity|]. specialize (El _ _ _ Ep). discriminate El.
Qed.

Lemma SerializeFixed_honest n : forall v i s,
  honest (let* (ok, s') := SerializeFixed_loop (track W) n v i (s, false) in
          Done (if ok then NoErrors else BufferFull, s')).
Proof.
  induction n as [|n IH]; intros v i s; cbn [SerializeFixed_loop].
  - apply honest_ok.
  - cbn [track w_push fst snd orb]. destruct (w_push W s _) as [[[] s1]| |]; cbn [bind negb]; try (intros s' f [=]; fail).
    apply IH.
Qed.

Lemma push_bool_honest v s : honest (push_bool (track W) v (s, false)).
Proof.
  unfold push_bool. cbn [track w_push fst snd orb]. destruct (w_push W s _) as [[[] s1]| |]; cbn [bind negb];
    intros s' f [=]; auto.
Qed.

Lemma scalar_honest sc z s : honest (scalar_serialize_z sc z (track W) (s, false)).
Proof.
  destruct sc; cbn [scalar_serialize_z]; try apply SerializeVarint_honest; try apply push_bool_honest;
    apply SerializeFixed_honest.
Qed.

Lemma bytes_honest v s : honest (bytes_serialize v _ (track W) (s, false)).
Proof.
  destruct v; cbn [bytes_serialize]; try (intros s' f [=]; fail).
  cbn [track w_pushn fst snd orb]. destruct (w_pushn W s data len) as [[[] s1]| |]; cbn [bind negb]; intros s' f [=]; auto.
Qed.

Definition ser_honest (t : ety) : Prop := forall v s, honest (serialize t v _ (track W) (s, false)).

Lemma honest_bind_any {A} (r : res A) k : (forall a, honest (k a)) -> honest (let* a := r in k a).
Proof. intros Hk. destruct r; cbn [bind]; [apply Hk|intros s' f [=]|intros s' f [=]]. Qed.

Lemma bytes_with_id_honest v num o s : honest (bytes_serialize_with_id v num o _ (track W) (s, false)).
Proof.
  destruct v as [| |len data| |]; cbn [bytes_serialize_with_id]; try (intros s' f [=]; fail).
  destruct (_ || _); [|apply honest_ok]. destruct (_ <=? _); [|apply honest_full].
  pose proof (SerializeVarint_honest (MakeTag num LENDEL) s) as H1.
  destruct (SerializeVarint (track W) (MakeTag num LENDEL) (s, false)) as [[e [s1 f1]]| |]; cbn [bind]; try (intros s' f [=]; fail).
  destruct e; cbn [is_ok bind andb]; try (intros s' f [=]; fail).
  rewrite (H1 s1 f1 eq_refl).
  pose proof (SerializeVarint_honest len s1) as H2.
  destruct (SerializeVarint (track W) len (s1, false)) as [[e [s2 f2]]| |]; cbn [bind]; try (intros s' f [=]; fail).
  destruct e; cbn [is_ok andb]; try (intros s' f [=]; fail).
  rewrite (H2 s2 f2 eq_refl). destruct (0 <? len); [apply bytes_honest|apply honest_ok].
Qed.

Lemma elem_honest t v num o s : ser_honest t ->
  honest (elem_serialize_with_id t (serialize t) v num o _ (track W) (s, false)).
Proof.
  intros IH. destruct t as [sc|st' max|fs os].
  - unfold elem_serialize_with_id, scalar_serialize_with_id, with_tag.
    apply honest_bind; [apply SerializeVarint_honest|]. intros s'. apply (IH v s').
  - apply bytes_with_id_honest.
  - unfold elem_serialize_with_id. apply honest_bind_any. intros size.
    destruct (_ || _); [|apply honest_ok].
    apply honest_bind; [apply SerializeVarint_honest|]. intros s1.
    apply honest_bind; [apply SerializeVarint_honest|]. intros s2.
    destruct (_ <=? _); [apply IH|apply honest_full].
Qed.

Lemma rep_packed_honest t data : ser_honest t -> forall n i s,
  honest (rep_serialize_packed (serialize t) n i data (track W) (s, false)).
Proof.
  intros IH. induction n as [|n IHn]; intros i s; cbn [rep_serialize_packed]; [apply honest_ok|].
  apply honest_bind_any. intros x. apply honest_bind; [apply IH|]. intros s'. apply IHn.
Qed.

Lemma rep_unpacked_honest t num data : ser_honest t -> forall n i s,
  honest (rep_serialize_unpacked (serialize t) num n i data (track W) (s, false)).
Proof.
  intros IH. induction n as [|n IHn]; intros i s; cbn [rep_serialize_unpacked]; [apply honest_ok|].
  apply honest_bind_any. intros x. apply honest_bind_any. intros size.
  pose proof (SerializeVarint_honest (MakeTag num LENDEL) s) as H1.
  destruct (SerializeVarint (track W) (MakeTag num LENDEL) (s, false)) as [[e [s1 f1]]| |]; cbn [bind]; try (intros s' f [=]; fail).
  destruct e; cbn [is_ok bind andb]; try (intros s' f [=]; fail).
  rewrite (H1 s1 f1 eq_refl).
  apply honest_bind; [|intros s'; apply IHn].
  pose proof (SerializeVarint_honest size s1) as H2.
  destruct (SerializeVarint (track W) size (s1, false)) as [[e [s2 f2]]| |]; cbn [bind]; try (intros s' f [=]; fail).
  destruct e; cbn [is_ok andb]; try (intros s' f [=]; fail).
  rewrite (H2 s2 f2 eq_refl). destruct (0 <? size); [apply IH|apply honest_ok].
Qed.

Lemma field_honest num k t v oi pres s : ser_honest t ->
  honest (field_serialize (num, k, t, serialize t) oi pres v _ (track W) (s, false)).
Proof.
  intros IH. unfold field_serialize. destruct k as [| |max|].
  - destruct t as [sc|st' max|fs os]; try apply elem_honest; auto.
    destruct v; try (intros s' f [=]; fail). destruct (scalar_differs_from_default sc z); [|apply honest_ok].
    now apply elem_honest.
  - apply honest_bind_any. intros has. destruct has; [now apply elem_honest|apply honest_ok].
  - unfold rep_serialize_with_id. destruct v as [| | |len data|]; try (intros s' f [=]; fail).
    destruct (is_packed t).
    + apply honest_bind_any. intros size. destruct (_ || _); [|apply honest_ok].
      apply honest_bind; [apply SerializeVarint_honest|]. intros s1.
      apply honest_bind; [apply SerializeVarint_honest|]. intros s2.
      destruct (_ <=? _); [now apply rep_packed_honest|apply honest_full].
    + apply honest_bind_any. intros size. destruct (_ <=? _); [now apply rep_unpacked_honest|apply honest_full].
  - apply honest_ok.
Qed.

Lemma serialize_honest t : ser_honest t.
Proof.
  induction t as [sc|st' max|fs os Hf Ho] using ety_ind'; intros v s; cbn [serialize].
  - destruct v; cbn [scalar_serialize]; try (intros s' f [=]; fail). apply scalar_honest.
  - apply bytes_honest.
  - unfold msg_serialize. destruct v as [| | | |pres vs ovs]; try (intros s' f [=]; fail).
    apply honest_bind.
    + clear Ho ovs. revert vs s. generalize 0 as oi. induction Hf as [|[[num k] t] fs Ht Hf IHf]; intros oi vs s;
        cbn [map fields_serialize]; destruct vs as [|v vs]; try (intros s' f [=]; fail); [apply honest_ok|].
      apply honest_bind; [now apply field_honest|]. intros s'. apply IHf.
    + intros s1. clear Hf vs s. revert ovs s1. induction Ho as [|ms os Hm Ho IHo]; intros ovs s1;
        cbn [map oneofs_serialize]; destruct ovs as [|[which v] ovs]; try (intros s' f [=]; fail); [apply honest_ok|].
      apply honest_bind; [|intros s'; apply IHo].
      rewrite find_member_map. destruct (lookup ms which) as [t|] eqn:El; [|apply honest_ok].
      apply elem_honest. apply lookup_In in El. eapply Forall_forall in Hm; [|exact El]. exact Hm.
Qed.

End Track.

Lemma honest_serialize S (W : wops S) t v s s' f : sticky W ->
  serialize t v _ (track W) (s, false) = Done (NoErrors, (s', f)) -> f = false.
Proof. intros st E. eapply serialize_honest; eauto. Qed.

Lemma wfix_sticky cap : sticky (wfix_ops cap).
Proof.
  intros s b s' b' ok s'' E1 E2. cbn [wfix_ops w_push] in *. unfold wfix_push in *.
  destruct (wf_w s <? cap) eqn:El.
  - destruct (aset (wf_data s) (wf_w s) b); cbn [bind] in E1; discriminate.
  - injection E1 as <-. rewrite El in E2. congruence.
Qed.

Lemma flaky_refuted : exists t v s', desc_ok t /\ wt t v
  /\ serialize t v _ (track flaky_ops) (0, false) = Done (NoErrors, (s', true)).
Proof.
  exists (EMsg [(1, KPlain, EScalar UInt64)] []), (VM [] [VS 300] []). eexists.
  split; [|split; [cbn; repeat split; lia|vm_compute; reflexivity]].
  cbn. split; [repeat constructor; cbn; tauto|]. repeat split; lia.
Qed.
