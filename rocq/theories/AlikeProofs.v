(** Buffers that answer alike are treated alike (C74): a parametricity argument, function by function. *)
From Verif Require Import Base Buffers Wire Schema Fields Message Spec Contracts BitLemmas
  ReadProofs Struct SerProofs Tables DecodeProofs SpecWrite SpecAlike.
From Coq Require Import ZifyBool ZifyNat ZifyN.
Ltac Zify.zify_post_hook ::= Z.div_mod_to_equations.

Lemma alike_bind {A C S1 S2 T1 T2} (q : S1 -> S2 -> Prop) (q' : T1 -> T2 -> Prop) (r1 : res (A * S1)) (r2 : res (A * S2))
    (k1 : A * S1 -> res (C * T1)) (k2 : A * S2 -> res (C * T2)) :
  alike q r1 r2 -> (forall a s1 s2, q s1 s2 -> alike q' (k1 (a, s1)) (k2 (a, s2))) ->
  alike q' (bind r1 k1) (bind r2 k2).
Proof.
  intros H Hk. destruct r1 as [[a s1]| |], r2 as [[b s2]| |]; cbn [alike bind] in *; try contradiction; auto.
  destruct H as (-> & Hq). auto.
Qed.

Lemma alike_pure {X C T1 T2} (q' : T1 -> T2 -> Prop) (r : res X) (k1 : X -> res (C * T1)) (k2 : X -> res (C * T2)) :
  (forall x, alike q' (k1 x) (k2 x)) -> alike q' (bind r k1) (bind r k2).
Proof. intros H. destruct r; cbn [bind alike]; auto. Qed.

Lemma alike_done {A S1 S2} (q : S1 -> S2 -> Prop) (a : A) s1 s2 : q s1 s2 -> alike q (Done (a, s1)) (Done (a, s2)).
Proof. cbn [alike]. auto. Qed.

Lemma u8_byte x : 0 <= u8 x < 256.
Proof. unfold u8, uw. change (2 ^ 8) with 256. lia. Qed.

(* ------------------------------------------------------------------------------------------- *)
(** ** Writing *)

Section Writing.
Context {S1 S2 : Type} {W1 : wops S1} {W2 : wops S2} {q : S1 -> S2 -> Prop} (ok : same_writer W1 W2 q).

Lemma push_alike b s1 s2 : 0 <= b < 256 -> q s1 s2 -> alike q (w_push W1 s1 b) (w_push W2 s2 b).
Proof. intros Hb Hq. now apply (proj1 (proj2 (ok _ _ Hq))). Qed.

Lemma SV_loop_alike n : forall v mf s1 s2, q s1 s2 ->
  alike q (SerializeVarint_loop W1 n v mf s1) (SerializeVarint_loop W2 n v mf s2).
Proof.
  induction n as [|n IH]; intros v mf s1 s2 Hq; cbn [SerializeVarint_loop]; destruct (_ && _); try exact I;
    try (apply alike_done; exact Hq).
  eapply alike_bind; [apply push_alike; [apply u8_byte|exact Hq]|]. intros a t1 t2 Ht. now apply IH.
Qed.

Lemma SV_alike v s1 s2 : q s1 s2 -> alike q (SerializeVarint W1 v s1) (SerializeVarint W2 v s2).
Proof.
  intros Hq. unfold SerializeVarint. eapply alike_bind; [apply SV_loop_alike; exact Hq|]. intros [v' m] t1 t2 Ht.
  eapply alike_bind; [apply push_alike; [apply u8_byte|exact Ht]|]. intros a u1 u2 Hu. now apply alike_done.
Qed.

Lemma SF_loop_alike n : forall v i s1 s2, q s1 s2 ->
  alike q (SerializeFixed_loop W1 n v i s1) (SerializeFixed_loop W2 n v i s2).
Proof.
  induction n as [|n IH]; intros v i s1 s2 Hq; cbn [SerializeFixed_loop]; [now apply alike_done|].
  eapply alike_bind; [apply push_alike; [apply u8_byte|exact Hq]|]. intros [] t1 t2 Ht; [now apply IH|now apply alike_done].
Qed.

Lemma SF_alike w v s1 s2 : q s1 s2 -> alike q (SerializeFixedNoTag W1 w v s1) (SerializeFixedNoTag W2 w v s2).
Proof.
  intros Hq. unfold SerializeFixedNoTag. eapply alike_bind; [apply SF_loop_alike; exact Hq|]. intros a t1 t2 Ht. now apply alike_done.
Qed.

Lemma push_bool_alike v s1 s2 : q s1 s2 -> alike q (push_bool W1 v s1) (push_bool W2 v s2).
Proof.
  intros Hq. unfold push_bool. eapply alike_bind; [apply push_alike; [destruct (v =? 0); lia|exact Hq]|].
  intros a t1 t2 Ht. now apply alike_done.
Qed.

Lemma scalar_alike sc z s1 s2 : q s1 s2 -> alike q (scalar_serialize_z sc z W1 s1) (scalar_serialize_z sc z W2 s2).
Proof.
  intros Hq. destruct sc; cbn [scalar_serialize_z]; first [now apply SV_alike|now apply push_bool_alike|now apply SF_alike].
Qed.

Lemma bytes_alike v s1 s2 : q s1 s2 -> alike q (bytes_serialize v S1 W1 s1) (bytes_serialize v S2 W2 s2).
Proof.
  intros Hq. destruct v; cbn [bytes_serialize]; try exact I.
  eapply alike_bind; [apply (proj2 (proj2 (ok _ _ Hq)))|]. intros a t1 t2 Ht. now apply alike_done.
Qed.

(** Go on only after success. *)
Lemma then_alike (r1 : res (err * S1)) (r2 : res (err * S2)) (k1 : S1 -> res (err * S1)) (k2 : S2 -> res (err * S2)) :
  alike q r1 r2 -> (forall s1 s2, q s1 s2 -> alike q (k1 s1) (k2 s2)) ->
  alike q (let* (e, s) := r1 in if is_ok e then k1 s else Done (e, s))
          (let* (e, s) := r2 in if is_ok e then k2 s else Done (e, s)).
Proof.
  intros H Hk. eapply alike_bind; [exact H|]. intros e t1 t2 Ht. cbv beta iota. destruct (is_ok e); [now apply Hk|now apply alike_done].
Qed.

Lemma avail_alike (s1 : S1) (s2 : S2) n (a1 b1 : res (err * S1)) (a2 b2 : res (err * S2)) : q s1 s2 -> alike q a1 a2 -> alike q b1 b2 ->
  alike q (if n <=? w_get_available_size W1 s1 then a1 else b1) (if n <=? w_get_available_size W2 s2 then a2 else b2).
Proof. intros Hq Ha Hb. rewrite (proj1 (ok _ _ Hq)). destruct (_ <=? _); assumption. Qed.

Lemma bytes_with_id_alike v num o s1 s2 : q s1 s2 ->
  alike q (bytes_serialize_with_id v num o S1 W1 s1) (bytes_serialize_with_id v num o S2 W2 s2).
Proof.
  intros Hq. destruct v; cbn [bytes_serialize_with_id]; try exact I.
  destruct (_ || _); [|now apply alike_done]. apply avail_alike; [exact Hq| |now apply alike_done].
  eapply alike_bind; [apply SV_alike; exact Hq|]. intros e t1 t2 Ht.
  eapply alike_bind with (q := q); [destruct (is_ok e); [apply SV_alike; exact Ht|now apply alike_done]|]. intros e' u1 u2 Hu.
  cbv beta iota. destruct (_ && _); [now apply bytes_alike|now apply alike_done].
Qed.

Definition ser_alike (t : ety) : Prop := forall v s1 s2, q s1 s2 -> alike q (serialize t v S1 W1 s1) (serialize t v S2 W2 s2).

Lemma elem_alike t v num o s1 s2 : ser_alike t -> q s1 s2 ->
  alike q (elem_serialize_with_id t (serialize t) v num o S1 W1 s1) (elem_serialize_with_id t (serialize t) v num o S2 W2 s2).
Proof.
  intros IH Hq. destruct t as [sc|st max|fs os].
  - unfold elem_serialize_with_id, scalar_serialize_with_id, with_tag.
    apply then_alike; [now apply SV_alike|]. intros t1 t2 Ht. apply (IH v t1 t2 Ht).
  - now apply bytes_with_id_alike.
  - unfold elem_serialize_with_id. apply alike_pure. intros size. destruct (_ || _); [|now apply alike_done].
    apply then_alike; [now apply SV_alike|]. intros t1 t2 Ht. apply then_alike; [now apply SV_alike|]. intros u1 u2 Hu.
    apply avail_alike; [exact Hu|now apply IH|now apply alike_done].
Qed.

Lemma rep_packed_alike t data : ser_alike t -> forall n i s1 s2, q s1 s2 ->
  alike q (rep_serialize_packed (serialize t) n i data W1 s1) (rep_serialize_packed (serialize t) n i data W2 s2).
Proof.
  intros IH. induction n as [|n IHn]; intros i s1 s2 Hq; cbn [rep_serialize_packed]; [now apply alike_done|].
  apply alike_pure. intros x. apply then_alike; [now apply IH|]. intros t1 t2 Ht. now apply IHn.
Qed.

Lemma rep_unpacked_alike t num data : ser_alike t -> forall n i s1 s2, q s1 s2 ->
  alike q (rep_serialize_unpacked (serialize t) num n i data W1 s1) (rep_serialize_unpacked (serialize t) num n i data W2 s2).
Proof.
  intros IH. induction n as [|n IHn]; intros i s1 s2 Hq; cbn [rep_serialize_unpacked]; [now apply alike_done|].
  apply alike_pure. intros x. apply alike_pure. intros size.
  eapply alike_bind; [apply SV_alike; exact Hq|]. intros e t1 t2 Ht. cbv beta iota.
  apply then_alike; [|intros u1 u2 Hu; now apply IHn].
  destruct (is_ok e); [|now apply alike_done].
  eapply alike_bind; [apply SV_alike; exact Ht|]. intros e' u1 u2 Hu. cbv beta iota. destruct (_ && _); [now apply IH|now apply alike_done].
Qed.

Lemma field_alike num k t v oi pres s1 s2 : ser_alike t -> q s1 s2 ->
  alike q (field_serialize (num, k, t, serialize t) oi pres v S1 W1 s1) (field_serialize (num, k, t, serialize t) oi pres v S2 W2 s2).
Proof.
  intros IH Hq. unfold field_serialize. destruct k as [| |max|].
  - destruct t as [sc|st max|fs os]; try (apply elem_alike; assumption).
    destruct v; try exact I. destruct (scalar_differs_from_default sc z); [now apply elem_alike|now apply alike_done].
  - apply alike_pure. intros has. destruct has; [now apply elem_alike|now apply alike_done].
  - unfold rep_serialize_with_id. destruct v as [| | |len data|]; try exact I. destruct (is_packed t).
    + apply alike_pure. intros size. destruct (_ || _); [|now apply alike_done].
      apply then_alike; [now apply SV_alike|]. intros t1 t2 Ht. apply then_alike; [now apply SV_alike|]. intros u1 u2 Hu.
      apply avail_alike; [exact Hu|now apply rep_packed_alike|now apply alike_done].
    + apply alike_pure. intros size. apply avail_alike; [exact Hq|now apply rep_unpacked_alike|now apply alike_done].
  - now apply alike_done.
Qed.

Lemma serialize_alike t : ser_alike t.
Proof.
  induction t as [sc|st max|fs os Hf Ho] using ety_ind'; intros v s1 s2 Hq; cbn [serialize].
  - destruct v; cbn [scalar_serialize]; try exact I. now apply scalar_alike.
  - now apply bytes_alike.
  - unfold msg_serialize. destruct v as [| | | |pres vs ovs]; try exact I.
    apply then_alike.
    + clear Ho ovs. revert vs s1 s2 Hq. generalize 0 as oi. induction Hf as [|[[num k] t] fs Ht Hf IHf]; intros oi vs s1 s2 Hq;
        cbn [map fields_serialize]; destruct vs as [|v vs]; try exact I; [now apply alike_done|].
      apply then_alike; [now apply field_alike|]. intros t1 t2 Hq'. now apply IHf.
    + clear Hf vs s1 s2 Hq. intros s1 s2. revert ovs s1 s2. induction Ho as [|ms os Hm Ho IHo]; intros ovs s1 s2 Hq;
        cbn [map oneofs_serialize]; destruct ovs as [|[which v] ovs]; try exact I; [now apply alike_done|].
      apply then_alike; [|intros t1 t2 Ht; now apply IHo].
      rewrite find_member_map. destruct (lookup ms which) as [t|] eqn:El; [|now apply alike_done].
      apply elem_alike; [|exact Hq]. apply lookup_In in El. eapply Forall_forall in Hm; [|exact El]. exact Hm.
Qed.
End Writing.

(* ------------------------------------------------------------------------------------------- *)
(** ** Reading *)

Definition pops_alike {S1 S2} (R1 : rops S1) (R2 : rops S2) (q : S1 -> S2 -> Prop) : Prop :=
  forall s1 s2, q s1 s2 -> alike q (r_pop R1 s1) (r_pop R2 s2).

Lemma same_pops {S1 S2} {R1 : rops S1} {R2 : rops S2} {q} : same_reader R1 R2 q -> pops_alike R1 R2 q.
Proof. intros ok s1 s2 Hq. exact (proj1 (proj2 (ok _ _ Hq))). Qed.

Section Reads.
Context {S1 S2 : Type} {R1 : rops S1} {R2 : rops S2} {q : S1 -> S2 -> Prop} (pop : pops_alike R1 R2 q).

Lemma DV_loop_alike n : forall w i temp byte s1 s2, q s1 s2 ->
  alike q (DeserializeVarint_loop R1 n w i temp byte s1) (DeserializeVarint_loop R2 n w i temp byte s2).
Proof.
  induction n as [|n IH]; intros w i temp byte s1 s2 Hq; cbn [DeserializeVarint_loop]; [exact I|].
  eapply alike_bind; [apply pop; exact Hq|]. intros ob t1 t2 Ht. cbv beta iota zeta.
  destruct (_ && _ && _); [now apply IH|now apply alike_done].
Qed.

Lemma DV_alike w s1 s2 : q s1 s2 -> alike q (DeserializeVarint R1 w s1) (DeserializeVarint R2 w s2).
Proof.
  intros Hq. unfold DeserializeVarint. eapply alike_bind; [apply DV_loop_alike; exact Hq|]. intros [[r b] x] t1 t2 Ht.
  cbv beta iota. destruct r; [destruct (negb _)|]; now apply alike_done.
Qed.

Lemma DF_loop_alike n : forall w i temp s1 s2, q s1 s2 ->
  alike q (DeserializeFixed_loop R1 n w i temp s1) (DeserializeFixed_loop R2 n w i temp s2).
Proof.
  induction n as [|n IH]; intros w i temp s1 s2 Hq; cbn [DeserializeFixed_loop]; [now apply alike_done|].
  eapply alike_bind; [apply pop; exact Hq|]. intros [b|] t1 t2 Ht; [now apply IH|now apply alike_done].
Qed.

Lemma DF_alike w s1 s2 : q s1 s2 -> alike q (DeserializeFixed R1 w s1) (DeserializeFixed R2 w s2).
Proof.
  intros Hq. unfold DeserializeFixed. eapply alike_bind; [apply DF_loop_alike; exact Hq|]. intros [r x] t1 t2 Ht.
  cbv beta iota. destruct r; now apply alike_done.
Qed.

Lemma map_alike {A B} (f : A -> B) (r1 : res (err * option A * S1)) (r2 : res (err * option A * S2)) : alike q r1 r2 ->
  alike q (let* (e, ov, s') := r1 in match e with NoErrors => Done (e, option_map f ov, s') | _ => Done (e, None, s') end)
          (let* (e, ov, s') := r2 in match e with NoErrors => Done (e, option_map f ov, s') | _ => Done (e, None, s') end).
Proof. intros H. eapply alike_bind; [exact H|]. intros [e o] t1 t2 Ht. cbv beta iota. destruct e; now apply alike_done. Qed.

Lemma scalar_read_alike sc s1 s2 : q s1 s2 -> alike q (scalar_deserialize_z sc R1 s1) (scalar_deserialize_z sc R2 s2).
Proof.
  intros Hq. destruct sc; cbn [scalar_deserialize_z];
    unfold DeserializeInt, DeserializeUInt, DeserializeSInt, DeserializeSFixed, DeserializeFloat, DeserializeDouble;
    try (apply DV_alike; assumption); try (apply DF_alike; assumption);
    try (apply map_alike, DV_alike; assumption); try (apply map_alike, DF_alike; assumption).
  unfold DeserializeBool. eapply alike_bind; [apply pop; exact Hq|]. intros [b|] t1 t2 Ht; now apply alike_done.
Qed.

Lemma tag_alike s1 s2 : q s1 s2 -> alike q (DeserializeTag R1 s1) (DeserializeTag R2 s2).
Proof.
  intros Hq. unfold DeserializeTag. eapply alike_bind; [apply DV_alike; exact Hq|]. intros [e o] t1 t2 Ht. cbv beta iota.
  destruct e; try (now apply alike_done). destruct o; [destruct (_ <=? _)|]; now apply alike_done.
Qed.

Lemma bytes_loop_alike n : forall len data s1 s2, q s1 s2 ->
  alike q (bytes_deserialize_loop R1 n len data s1) (bytes_deserialize_loop R2 n len data s2).
Proof.
  induction n as [|n IH]; intros len data s1 s2 Hq; cbn [bytes_deserialize_loop]; [now apply alike_done|].
  eapply alike_bind; [apply pop; exact Hq|]. intros [b|] t1 t2 Ht; [|now apply alike_done].
  cbv beta iota. apply alike_pure. intros d. now apply IH.
Qed.

Lemma scalar_deserialize_alike sc v s1 s2 : q s1 s2 -> alike q (scalar_deserialize sc S1 R1 v s1) (scalar_deserialize sc S2 R2 v s2).
Proof.
  intros Hq. unfold scalar_deserialize. eapply alike_bind; [apply scalar_read_alike; exact Hq|]. intros [e o] t1 t2 Ht. now apply alike_done.
Qed.

Lemma packed_loop_alike sc fuel : forall x len data s1 s2, q s1 s2 ->
  alike q (rep_packed_loop sc fuel x len data R1 s1) (rep_packed_loop sc fuel x len data R2 s2).
Proof.
  induction fuel as [|fuel IH]; intros x len data s1 s2 Hq; cbn [rep_packed_loop]; [exact I|].
  eapply alike_bind; [apply scalar_deserialize_alike; exact Hq|]. intros [e x'] t1 t2 Ht. cbv beta iota.
  destruct (is_ok e); [|now apply alike_done]. apply alike_pure. intros [[e2 len'] data'].
  destruct (is_ok e2); [now apply IH|now apply alike_done].
Qed.
End Reads.

Lemma lor_mod a b : 0 <= a < 2 ^ 32 -> 0 <= b < 2 ^ 32 -> Z.lor a b = Z.lor a b mod 2 ^ 32.
Proof.
  intros Ha Hb. apply Z.bits_inj'. intros k Hk. destruct (Z.ltb_spec k 32).
  - now rewrite Z.mod_pow2_bits_low by lia.
  - rewrite Z.mod_pow2_bits_high by lia. rewrite Z.lor_spec.
    rewrite <- (Z.mod_small a (2 ^ 32)), <- (Z.mod_small b (2 ^ 32)) by assumption. now rewrite !Z.mod_pow2_bits_high by lia.
Qed.

Lemma DV_loop_range {S} (R : rops S) n : forall i temp byte s r, 0 <= temp < 2 ^ 32 ->
  DeserializeVarint_loop R n 32 i temp byte s = Done r -> 0 <= snd (fst r) < 2 ^ 32.
Proof.
  induction n as [|n IH]; intros i temp byte s r Ht; cbn [DeserializeVarint_loop]; [discriminate|].
  destruct (r_pop R s) as [[ob s']| |]; cbn [bind]; try discriminate.
  assert (H : 0 <= match ob with
                   | Some b => Z.lor temp (uw 32 (Z.shiftl (Z.land b 127) (i * VARINT_SHIFT_N_BITS)))
                   | None => temp end < 2 ^ 32).
  { destruct ob as [b|]; [|exact Ht].
    assert (0 <= uw 32 (Z.shiftl (Z.land b 127) (i * VARINT_SHIFT_N_BITS)) < 2 ^ 32) by (unfold uw; apply Z.mod_pos_bound; lia).
    split; [apply Z.lor_nonneg; lia|]. rewrite lor_mod by assumption. apply Z.mod_pos_bound. lia. }
  destruct (_ && _ && _); [apply IH; exact H|]. intros [= <-]. exact H.
Qed.

Lemma DV_value_range {S} (R : rops S) s e n s' : DeserializeVarint R 32 s = Done (e, Some n, s') -> 0 <= n < 2 ^ 32.
Proof.
  unfold DeserializeVarint. destruct (DeserializeVarint_loop R 10 32 0 0 0 s) as [[[[r b] x] s1]| |] eqn:E; cbn [bind]; try discriminate.
  apply DV_loop_range in E; [|lia]. cbn [fst snd] in E. destruct r; [destruct (negb _)|]; try discriminate. intros [= _ <- _]. exact E.
Qed.

Definition qs {S1 S2} (q : S1 -> S2 -> Prop) (b1 : section S1) (b2 : section S2) : Prop :=
  q (sec_parent b1) (sec_parent b2) /\ sec_size b1 = sec_size b2.

Lemma same_section {S1 S2} {R1 : rops S1} {R2 : rops S2} {q} : same_reader R1 R2 q ->
  same_reader (sec_ops R1) (sec_ops R2) (qs q).
Proof.
  intros ok b1 b2 [Hq Hs]. cbn [sec_ops r_get_size r_pop r_advance_n]. split; [exact Hs|]. split.
  - unfold sec_pop. rewrite Hs. destruct (0 <? sec_size b2).
    + eapply alike_bind; [exact (proj1 (proj2 (ok _ _ Hq)))|]. intros ob t1 t2 Ht. apply alike_done. split; [exact Ht|reflexivity].
    + apply alike_done. split; assumption.
  - intros n Hn. unfold sec_advance_n. rewrite Hs. destruct (Z.ltb_spec 0 (sec_size b2)).
    + eapply alike_bind; [apply (proj2 (proj2 (ok _ _ Hq))); destruct (Z.leb_spec n (sec_size b2)); lia|].
      intros k t1 t2 Ht. apply alike_done. split; [exact Ht|reflexivity].
    + apply alike_done. split; assumption.
Qed.

Lemma mk_section_qs {S1 S2} {R1 : rops S1} {R2 : rops S2} {q} s1 s2 n : same_reader R1 R2 q -> q s1 s2 ->
  qs q (mk_section R1 s1 n) (mk_section R2 s2 n).
Proof. intros ok Hq. unfold mk_section, qs; cbn. rewrite (proj1 (ok _ _ Hq)). auto. Qed.

Definition deser_alike (d : deserializer) : Prop := forall S1 S2 (R1 : rops S1) (R2 : rops S2) q, same_reader R1 R2 q ->
  forall v s1 s2, q s1 s2 -> alike q (d S1 R1 v s1) (d S2 R2 v s2).

Lemma scalar_deser_alike sc : deser_alike (scalar_deserialize sc).
Proof. intros S1 S2 R1 R2 q ok v s1 s2 Hq. now apply (scalar_deserialize_alike (same_pops ok)). Qed.

Lemma bytes_deser_alike max : deser_alike (bytes_deserialize max).
Proof.
  intros S1 S2 R1 R2 q ok v s1 s2 Hq. unfold bytes_deserialize.
  eapply alike_bind; [apply (DV_alike (same_pops ok)); exact Hq|]. intros [e o] t1 t2 Ht. cbv beta iota.
  destruct e; try (now apply alike_done). destruct o as [n|]; [|now apply alike_done].
  destruct (n <=? max); [|now apply alike_done].
  eapply alike_bind; [apply (bytes_loop_alike (same_pops ok)); exact Ht|]. intros [len data] u1 u2 Hu. now apply alike_done.
Qed.

Lemma in_section_alike {A B S1 S2} (q : S1 -> S2 -> Prop) r1 r2 (f : A -> res B) : alike (qs q) r1 r2 ->
  alike q (let* (a, sec) := r1 in let* b := f a in Done (b, sec_parent sec)) (let* (a, sec) := r2 in let* b := f a in Done (b, sec_parent sec)).
Proof. intros H. eapply alike_bind; [exact H|]. intros a u1 u2 [Hu _]. apply alike_pure. intros b. now apply alike_done. Qed.

Lemma section_deser_alike d : deser_alike d -> deser_alike (deserialize_section d).
Proof.
  intros Hd S1 S2 R1 R2 q ok v s1 s2 Hq. unfold deserialize_section.
  eapply alike_bind; [apply (DV_alike (same_pops ok)); exact Hq|]. intros [e o] t1 t2 Ht. cbv beta iota.
  destruct e; try (now apply alike_done). destruct o as [n|]; [|now apply alike_done].
  eapply alike_bind; [apply (Hd _ _ _ _ _ (same_section ok)), mk_section_qs; [exact ok|exact Ht]|].
  intros [e v'] u1 u2 [Hu _]. now apply alike_done.
Qed.

Lemma elem_deser_alike t d w : deser_alike d -> deser_alike (elem_deserialize_check_type t d w).
Proof.
  intros Hd S1 S2 R1 R2 q ok v s1 s2 Hq. unfold elem_deserialize_check_type.
  destruct t; (destruct (wt_eqb _ w); [|now apply alike_done]).
  - now apply Hd.
  - now apply Hd.
  - now apply section_deser_alike.
Qed.

Lemma packed_deser_alike fuel sc : deser_alike (rep_deserialize_packed fuel sc).
Proof.
  intros S1 S2 R1 R2 q ok v s1 s2 Hq. unfold rep_deserialize_packed. destruct v; try exact I.
  eapply alike_bind; [apply (DV_alike (same_pops ok)); exact Hq|]. intros [e o] t1 t2 Ht. cbv beta iota zeta.
  eapply alike_bind; [apply (packed_loop_alike (same_pops (same_section ok))), mk_section_qs; [exact ok|exact Ht]|].
  intros [[e2 len'] data'] u1 u2 [Hu _]. now apply alike_done.
Qed.

Lemma unpacked_deser_alike t d : deser_alike d -> deser_alike (rep_deserialize_unpacked t d).
Proof.
  intros Hd S1 S2 R1 R2 q ok v s1 s2 Hq. unfold rep_deserialize_unpacked. destruct v as [| | |len data|]; try exact I.
  destruct (len <? zlen data); [|now apply alike_done]. destruct (rep_get len data len) as [i len'].
  apply alike_pure. intros x.
  assert (Hdirect : alike q
    (let* (e, x', s1) := d S1 R1 x s1 in let* data' := aset data i x' in Done (e, VR len' data', s1))
    (let* (e, x', s1) := d S2 R2 x s2 in let* data' := aset data i x' in Done (e, VR len' data', s1))).
  { eapply alike_bind; [eapply Hd; eauto|]. intros [e x'] t1 t2 Ht. apply alike_pure. intros data'. now apply alike_done. }
  destruct t; [exact Hdirect|exact Hdirect|].
  eapply alike_bind; [apply (DV_alike (same_pops ok)); exact Hq|]. intros [e o] t1 t2 Ht. cbv beta iota.
  destruct e; try (now apply alike_done). destruct o as [n|]; [|now apply alike_done].
  eapply alike_bind; [apply (Hd _ _ _ _ _ (same_section ok)), mk_section_qs; [exact ok|exact Ht]|].
  intros [e x'] u1 u2 [Hu _]. apply alike_pure. intros data'. now apply alike_done.
Qed.

Lemma rep_deser_alike fuel t d w : deser_alike d -> deser_alike (rep_deserialize_check_type fuel t d w).
Proof.
  intros Hd S1 S2 R1 R2 q ok v s1 s2 Hq. unfold rep_deserialize_check_type.
  destruct (wt_eqb LENDEL w); [|now apply alike_done].
  destruct t; [now apply packed_deser_alike|now apply unpacked_deser_alike..].
Qed.

Lemma field_deser_alike fuel num k t d oi w pres v S1 S2 (R1 : rops S1) (R2 : rops S2) q s1 s2 : deser_alike d -> same_reader R1 R2 q ->
  q s1 s2 -> alike q (field_deserialize fuel (num, k, t, d) oi w pres v R1 s1) (field_deserialize fuel (num, k, t, d) oi w pres v R2 s2).
Proof.
  intros Hd ok Hq. cbn [field_deserialize]. destruct k.
  - eapply alike_bind; [apply (elem_deser_alike t d w Hd _ _ _ _ _ ok); exact Hq|]. intros [e v'] t1 t2 Ht. now apply alike_done.
  - apply alike_pure. intros pr. eapply alike_bind; [apply (elem_deser_alike t d w Hd _ _ _ _ _ ok); exact Hq|].
    intros [e v'] t1 t2 Ht. now apply alike_done.
  - eapply alike_bind; [apply (rep_deser_alike fuel t d w Hd _ _ _ _ _ ok); exact Hq|]. intros [e v'] t1 t2 Ht. now apply alike_done.
  - now apply alike_done.
Qed.

Lemma skip_alike w S1 S2 (R1 : rops S1) (R2 : rops S2) q s1 s2 : same_reader R1 R2 q -> q s1 s2 ->
  alike q (skip_unknown_field w R1 s1) (skip_unknown_field w R2 s2).
Proof.
  intros ok Hq. destruct w; cbn [skip_unknown_field]; unfold DeserializeDouble, DeserializeFloat; try (now apply alike_done).
  1, 2, 4: (eapply alike_bind; [first [apply (DV_alike (same_pops ok)); exact Hq|apply (DF_alike (same_pops ok)); exact Hq]|]);
    intros [e o] t1 t2 Ht; now apply alike_done.
  unfold skip_length_delimited. pose proof (DV_alike (same_pops ok) 32 _ _ Hq) as H.
  destruct (DeserializeVarint R1 32 s1) as [[[e1 o1] t1]| |] eqn:E1, (DeserializeVarint R2 32 s2) as [[[e2 o2] t2]| |] eqn:E2;
      cbn [alike] in H; try contradiction; cbn [bind]; try exact I.
  destruct H as ([= -> ->] & Ht). destruct e2; try (now apply alike_done). destruct o2 as [n|]; [|now apply alike_done].
  apply DV_value_range in E2. eapply alike_bind; [apply (proj2 (proj2 (ok _ _ Ht))); exact E2|].
  intros k u1 u2 Hu. now apply alike_done.
Qed.

Section Msg.
Context (fuel : nat) (fs : list (Z * fkind * ety)) (os : list odesc).
Hypothesis Hf : Forall (fun f => deser_alike (deserialize fuel (snd f))) fs.
Hypothesis Ho : Forall (Forall (fun m => deser_alike (deserialize fuel (snd m)))) os.

Lemma oneof_alike ms id w o S1 S2 (R1 : rops S1) (R2 : rops S2) q s1 s2 :
  Forall (fun m => deser_alike (deserialize fuel (snd m))) ms -> same_reader R1 R2 q -> q s1 s2 ->
  alike q (oneof_deserialize (map (fun '(n, t) => (n, t, deserialize fuel t)) ms) id w o R1 s1)
    (oneof_deserialize (map (fun '(n, t) => (n, t, deserialize fuel t)) ms) id w o R2 s2).
Proof.
  intros Hms ok Hq. unfold oneof_deserialize. set (o1 := if id =? fst o then o else _).
  eapply alike_bind with (q := q).
  - rewrite (find_member_map (fun t => deserialize fuel t)). destruct (lookup ms (fst o1)) as [t|] eqn:E.
    + assert (Hd : deser_alike (deserialize fuel t)).
      { apply lookup_In in E. rewrite Forall_forall in Hms. exact (Hms _ E). }
      eapply alike_bind; [apply (elem_deser_alike t _ w Hd _ _ _ _ _ ok); exact Hq|]. intros [e v'] t1 t2 Ht. now apply alike_done.
    + now apply alike_done.
  - intros [e o2] t1 t2 Ht. now apply alike_done.
Qed.

Lemma dispatch_alike id w v S1 S2 (R1 : rops S1) (R2 : rops S2) q s1 s2 : same_reader R1 R2 q -> q s1 s2 ->
  alike q (msg_dispatch fuel (dtab fuel fs) (dotab fuel os) id w R1 v s1)
    (msg_dispatch fuel (dtab fuel fs) (dotab fuel os) id w R2 v s2).
Proof.
  intros ok Hq. destruct v as [| | | |pres vs ovs]; try exact I. cbn [msg_dispatch].
  destruct (find_field (dtab fuel fs) 0 0 id) as [[[ps oi] f]|] eqn:Ef.
  - apply find_field_inv in Ef. destruct Ef as (i & k & t & Ep & Eo & En & ->). apply nth_error_In in En.
    rewrite Forall_forall in Hf. specialize (Hf _ En). cbn in Hf.
    apply alike_pure. intros x. eapply alike_bind; [eapply field_deser_alike; eauto|]. intros [[e pres'] x'] t1 t2 Ht.
    apply alike_pure. intros vs'. now apply alike_done.
  - destruct (find_oneof (dotab fuel os) 0 id) as [[ps dms]|] eqn:Eo.
    + apply find_oneof_inv in Eo. destruct Eo as (j & ms & t & _ & En & _ & ->). apply nth_error_In in En.
      rewrite Forall_forall in Ho. specialize (Ho _ En).
      apply alike_pure. intros o. eapply alike_bind; [eapply oneof_alike; eauto|]. intros [e o'] t1 t2 Ht.
      apply alike_pure. intros ovs'. now apply alike_done.
    + destruct (id =? 0); [now apply alike_done|].
      eapply alike_bind; [eapply skip_alike; eauto|]. intros e t1 t2 Ht. now apply alike_done.
Qed.

Lemma loop_alike S1 S2 (R1 : rops S1) (R2 : rops S2) q : same_reader R1 R2 q -> forall n v s1 s2, q s1 s2 ->
  alike q (msg_loop fuel n (dtab fuel fs) (dotab fuel os) R1 v s1) (msg_loop fuel n (dtab fuel fs) (dotab fuel os) R2 v s2).
Proof.
  intros ok. induction n as [|n IH]; intros v s1 s2 Hq; cbn [msg_loop]; [exact I|].
  eapply alike_bind; [apply (tag_alike (same_pops ok)); exact Hq|]. intros [e o] t1 t2 Ht. cbv beta iota.
  destruct e; try (now apply alike_done). destruct o as [[w id]|]; [|now apply alike_done].
  eapply alike_bind; [eapply dispatch_alike; eauto|]. intros [e v'] u1 u2 Hu. cbv beta iota.
  destruct (is_ok e); [now apply IH|now apply alike_done].
Qed.
End Msg.

Lemma deserialize_alike fuel t : deser_alike (deserialize fuel t).
Proof.
  induction t as [sc|st max|fs os Hf Ho] using ety_ind'; cbn [deserialize].
  - apply scalar_deser_alike.
  - apply bytes_deser_alike.
  - intros S1 S2 R1 R2 q ok v s1 s2 Hq. unfold msg_deserialize. eapply loop_alike; eauto.
Qed.
