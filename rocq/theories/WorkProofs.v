(** Counting the calls decode makes (C71). Two runs of the decoder side by side: one on the counted buffer,
    one on the buffer itself. They return the same, and a potential (calls made + twice the bytes left)
    grows by at most one. *)
From Verif Require Import Base Buffers Wire Schema Fields Message Spec Contracts BitLemmas
  ReadProofs ScalarProofs BufferProofs Struct SerProofs Tables DecodeProofs ClearProofs SafetyProofs SafetyMsg SafetyProps TidyProofs SpecWork.
From Coq Require Import ZifyBool ZifyNat ZifyN.
Ltac Zify.zify_post_hook ::= Z.div_mod_to_equations.

(** Same outcome; on a result the potential is at most [B]. *)
Definition agree {A S1 S2} (q : S1 -> S2 -> Z -> Prop) (B : A -> Z) (r1 : res (A * S1)) (r2 : res (A * S2)) : Prop :=
  match r1, r2 with
  | Done (a, s1), Done (b, s2) => a = b /\ exists p, q s1 s2 p /\ p <= B a
  | UB, UB => True
  | Fuel, Fuel => True
  | _, _ => False
  end.

Lemma agree_bind {A C S1 S2 T1 T2} (q : S1 -> S2 -> Z -> Prop) (q' : T1 -> T2 -> Z -> Prop) (B : A -> Z) (B' : C -> Z) r1 r2
    (k1 : A * S1 -> res (C * T1)) (k2 : A * S2 -> res (C * T2)) :
  agree q B r1 r2 -> (forall a s1 s2 p, q s1 s2 p -> p <= B a -> agree q' B' (k1 (a, s1)) (k2 (a, s2))) ->
  agree q' B' (bind r1 k1) (bind r2 k2).
Proof.
  intros H Hk. destruct r1 as [[a s1]| |], r2 as [[b s2]| |]; cbn [agree bind] in *; try contradiction; auto.
  destruct H as (-> & p & Hq & Hp). eauto.
Qed.

Lemma agree_pure {X C T1 T2} (q' : T1 -> T2 -> Z -> Prop) (B' : C -> Z) (r : res X) k1 k2 :
  (forall x, agree q' B' (k1 x) (k2 x)) -> agree q' B' (bind r k1) (bind r k2).
Proof. intros H. destruct r; cbn [bind agree]; auto. Qed.

Lemma agree_done {A S1 S2} (q : S1 -> S2 -> Z -> Prop) (B : A -> Z) a s1 s2 p : q s1 s2 p -> p <= B a ->
  agree q B (Done (a, s1)) (Done (a, s2)).
Proof. cbn [agree]. eauto. Qed.

Lemma agree_weaken {A S1 S2} (q : S1 -> S2 -> Z -> Prop) (B B' : A -> Z) r1 r2 : agree q B r1 r2 -> (forall a, B a <= B' a) ->
  agree q B' r1 r2.
Proof.
  intros H Hb. destruct r1 as [[a s1]| |], r2 as [[b s2]| |]; cbn [agree] in *; auto.
  destruct H as (-> & p & Hq & Hp). split; [reflexivity|]. exists p. split; [exact Hq|]. specialize (Hb b). lia.
Qed.

Ltac pay := cbv beta iota in *; lia.

(** A popped byte pays for itself and for one call more. *)
Record paying {S1 S2} (R1 : rops S1) (R2 : rops S2) (q : S1 -> S2 -> Z -> Prop) (bound : Z) : Prop := {
  py_size : forall s1 s2 p, q s1 s2 p -> r_get_size R1 s1 = r_get_size R2 s2 /\ r_get_size R2 s2 <= bound;
  py_pop : forall s1 s2 p, q s1 s2 p ->
    agree q (fun ob => match ob with Some _ => p - 1 | None => p + 1 end) (r_pop R1 s1) (r_pop R2 s2);
  py_advance : forall s1 s2 p n, q s1 s2 p -> 0 <= n <= bound ->
    agree q (fun _ => p + 1) (r_advance_n R1 s1 n) (r_advance_n R2 s2 n);
  py_skip : forall s1 s2 p, q s1 s2 p ->
    agree q (fun _ => p + 1) (skip_length_delimited R1 s1) (skip_length_delimited R2 s2)
}.

Section Reads.
Context {S1 S2 : Type} {R1 : rops S1} {R2 : rops S2} {q : S1 -> S2 -> Z -> Prop}.
Hypothesis pop : forall s1 s2 p, q s1 s2 p ->
    agree q (fun ob => match ob with Some _ => p - 1 | None => p + 1 end) (r_pop R1 s1) (r_pop R2 s2).

Lemma DV_loop_pays n : forall w i temp byte s1 s2 p, q s1 s2 p ->
  agree q (fun '(ok, _, _) => if ok : bool then p - 1 else p + 1)
    (DeserializeVarint_loop R1 n w i temp byte s1) (DeserializeVarint_loop R2 n w i temp byte s2).
Proof.
  induction n as [|n IH]; intros w i temp byte s1 s2 p Hq; cbn [DeserializeVarint_loop]; [exact I|].
  eapply agree_bind; [apply pop; exact Hq|]. intros [b|] t1 t2 p' Hq' Hp.
  - destruct (negb _ && _ && true).
    + eapply agree_weaken; [apply IH; exact Hq'|]. intros [[[|] ?] ?]; lia.
    + eapply agree_done; [exact Hq'|]. lia.
  - rewrite andb_false_r. eapply agree_done; [exact Hq'|]. lia.
Qed.

(** On success a value that is not negative, when the machine word has a positive number of bits. *)
Definition read_bound {A} (p : Z) : err * option A -> Z := fun '(e, _) => match e with NoErrors => p - 1 | _ => p + 1 end.

Lemma DV_pays w s1 s2 p : q s1 s2 p ->
  agree q (read_bound p) (DeserializeVarint R1 w s1) (DeserializeVarint R2 w s2).
Proof.
  intros Hq. unfold DeserializeVarint. eapply agree_bind; [apply DV_loop_pays; exact Hq|].
  intros [[[|] byte] temp] t1 t2 p' Hq' Hp.
  - destruct (negb _); (eapply agree_done; [exact Hq'|cbn [read_bound]; lia]).
  - eapply agree_done; [exact Hq'|cbn [read_bound]; lia].
Qed.

Lemma map_pays {A B} (f : A -> B) p r1 r2 :
  agree q (read_bound p) r1 r2 ->
  agree q (read_bound p)
    (let* (e, ov, s') := r1 in match e with NoErrors => Done (e, option_map f ov, s') | _ => Done (e, None, s') end)
    (let* (e, ov, s') := r2 in match e with NoErrors => Done (e, option_map f ov, s') | _ => Done (e, None, s') end).
Proof.
  intros H. eapply agree_bind; [exact H|]. intros [e o] t1 t2 p' Hq Hp. cbn [read_bound] in Hp.
  destruct e; (eapply agree_done; [exact Hq|exact Hp]).
Qed.

Lemma DF_loop_pays n : forall w i temp s1 s2 p, q s1 s2 p ->
  agree q (fun '(ok, _) => if ok : bool then p - Z.of_nat n else p + 1)
    (DeserializeFixed_loop R1 n w i temp s1) (DeserializeFixed_loop R2 n w i temp s2).
Proof.
  induction n as [|n IH]; intros w i temp s1 s2 p Hq; cbn [DeserializeFixed_loop].
  - eapply agree_done; [exact Hq|]. cbn. lia.
  - eapply agree_bind; [apply pop; exact Hq|]. intros [b|] t1 t2 p' Hq' Hp.
    + eapply agree_weaken; [apply IH; exact Hq'|]. intros [[|] ?]; lia.
    + eapply agree_done; [exact Hq'|]. cbn. lia.
Qed.

Lemma DF_pays w s1 s2 p : 8 <= w -> q s1 s2 p ->
  agree q (read_bound p) (DeserializeFixed R1 w s1) (DeserializeFixed R2 w s2).
Proof.
  intros Hw Hq. unfold DeserializeFixed. eapply agree_bind; [apply DF_loop_pays; exact Hq|].
  assert (1 <= Z.of_nat (Z.to_nat (w / 8))) by lia.
  intros [[|] temp] t1 t2 p' Hq' Hp; (eapply agree_done; [exact Hq'|cbn [read_bound]; lia]).
Qed.

Lemma scalar_pays sc s1 s2 p : q s1 s2 p ->
  agree q (read_bound p) (scalar_deserialize_z sc R1 s1) (scalar_deserialize_z sc R2 s2).
Proof.
  intros Hq. destruct sc; cbn [scalar_deserialize_z];
    unfold DeserializeInt, DeserializeUInt, DeserializeSInt, DeserializeSFixed, DeserializeFloat, DeserializeDouble, DeserializeEnum;
    try (apply DV_pays; assumption); try (apply DF_pays; [lia|assumption]);
    try (apply map_pays, DV_pays; assumption); try (apply map_pays, DF_pays; [lia|assumption]).
  unfold DeserializeBool. eapply agree_bind; [apply pop; exact Hq|].
  intros [b|] t1 t2 p' Hq' Hp; (eapply agree_done; [exact Hq'|cbn [read_bound]; lia]).
Qed.

Lemma tag_pays s1 s2 p : q s1 s2 p ->
  agree q (read_bound p) (DeserializeTag R1 s1) (DeserializeTag R2 s2).
Proof.
  intros Hq. unfold DeserializeTag. eapply agree_bind; [apply DV_pays; exact Hq|].
  intros [e o] t1 t2 p' Hq' Hp. cbn [read_bound] in Hp.
  destruct e; try (eapply agree_done; [exact Hq'|cbn [read_bound]; lia]).
  destruct o; [destruct (_ <=? _)|]; (eapply agree_done; [exact Hq'|cbn [read_bound]; lia]).
Qed.

Lemma bytes_loop_pays n : forall len data s1 s2 p, q s1 s2 p ->
  agree q (fun _ => p + 1) (bytes_deserialize_loop R1 n len data s1) (bytes_deserialize_loop R2 n len data s2).
Proof.
  induction n as [|n IH]; intros len data s1 s2 p Hq; cbn [bytes_deserialize_loop].
  - eapply agree_done; [exact Hq|]. lia.
  - eapply agree_bind; [apply pop; exact Hq|]. intros [b|] t1 t2 p' Hq' Hp.
    + apply agree_pure. intros d. eapply agree_weaken; [apply IH; exact Hq'|]. intros ?. cbv beta. lia.
    + eapply agree_done; [exact Hq'|]. lia.
Qed.

End Reads.

(** Non-negative results of the varint reader. *)
Lemma DV_loop_nonneg {S} (R : rops S) n : forall w i temp byte s r, 0 <= temp -> 0 <= w ->
  DeserializeVarint_loop R n w i temp byte s = Done r -> 0 <= snd (fst r).
Proof.
  induction n as [|n IH]; intros w i temp byte s r Ht Hw H; cbn [DeserializeVarint_loop] in H; [discriminate|].
  inv_bind H ob. destruct ob as [o s'].
  assert (Hn : 0 <= match o with Some b => Z.lor temp (uw w (Z.shiftl (Z.land b 127) (i * VARINT_SHIFT_N_BITS))) | None => temp end).
  { destruct o; [|exact Ht]. apply Z.lor_nonneg. split; [exact Ht|]. unfold uw. apply Z.mod_pos_bound. apply Z.pow_pos_nonneg; lia. }
  match type of H with (if ?c then _ else _) = _ => destruct c end; [eapply IH; [| |exact H]; assumption|]. inversion H; subst; exact Hn.
Qed.
Lemma DV_nonneg {S} (R : rops S) w s e x s' : 0 <= w -> DeserializeVarint R w s = Done (e, Some x, s') -> 0 <= x.
Proof.
  intros Hw H. unfold DeserializeVarint in H. inv_bind H r. destruct r as [[[ok b] t] s1].
  pose proof (DV_loop_nonneg R _ _ _ _ _ _ _ (Z.le_refl 0) Hw Heqr) as Hn. cbn in Hn.
  destruct ok; [destruct (negb _)|]; try discriminate H; inversion H; subst; exact Hn.
Qed.

Lemma DV_none {S} (R : rops S) w s e o s' : DeserializeVarint R w s = Done (e, o, s') -> is_ok e = false -> o = None.
Proof.
  intros H He. unfold DeserializeVarint in H. inv_bind H r. destruct r as [[[ok b] t] s1].
  destruct ok; [destruct (negb _)|]; injection H as <- <- <-; try reflexivity; discriminate He.
Qed.

(** The loops of the decoder on sections of paying buffers. *)
Definition qsec {S1 S2} (q : S1 -> S2 -> Z -> Prop) (bound : Z) (b1 : section S1) (b2 : section S2) (p : Z) : Prop :=
  q (sec_parent b1) (sec_parent b2) p /\ sec_size b1 = sec_size b2 /\ sec_size b2 <= bound.

Lemma sec_pop_pays {S1 S2} {R1 : rops S1} {R2 : rops S2} {q bound} (ok : paying R1 R2 q bound) b1 b2 p : qsec q bound b1 b2 p ->
  agree (qsec q bound) (fun ob => match ob with Some _ => p - 1 | None => p + 1 end) (sec_pop R1 b1) (sec_pop R2 b2).
Proof.
  intros (Hq & Hs & Hb). unfold sec_pop. rewrite Hs. destruct (0 <? sec_size b2).
  - eapply agree_bind; [apply (py_pop _ _ _ _ ok); exact Hq|]. intros ob t1 t2 p' Hq' Hp.
    eapply agree_done; [|exact Hp]. split; [exact Hq'|]. cbn. lia.
  - eapply agree_done; [split; [exact Hq|split; assumption]|]. lia.
Qed.

Lemma sec_paying {S1 S2} {R1 : rops S1} {R2 : rops S2} {q bound} (ok : paying R1 R2 q bound) :
  paying (sec_ops R1) (sec_ops R2) (qsec q bound) bound.
Proof.
  assert (Hadv : forall b1 b2 p n, qsec q bound b1 b2 p -> 0 <= n ->
    agree (qsec q bound) (fun _ => p + 1) (sec_advance_n R1 b1 n) (sec_advance_n R2 b2 n)).
  { intros b1 b2 p n (Hq & Hs & Hb) Hn. unfold sec_advance_n. rewrite Hs. destruct (Z.ltb_spec 0 (sec_size b2)).
    - eapply agree_bind; [apply (py_advance _ _ _ _ ok); [exact Hq|destruct (Z.leb_spec n (sec_size b2)); lia]|].
      intros k t1 t2 p' Hq' Hp. eapply agree_done; [|exact Hp]. split; [exact Hq'|]. cbn. destruct (Z.leb_spec n (sec_size b2)); lia.
    - eapply agree_done; [split; [exact Hq|split; assumption]|]. lia. }
  constructor.
  - intros b1 b2 p (Hq & Hs & Hb). cbn. auto.
  - intros b1 b2 p H. apply (sec_pop_pays ok). exact H.
  - intros b1 b2 p n H Hn. apply Hadv; [exact H|lia].
  - intros b1 b2 p H. unfold skip_length_delimited.
    pose proof (DV_pays (R1 := sec_ops R1) (R2 := sec_ops R2) (sec_pop_pays ok) 32 _ _ _ H) as Hv.
    destruct (DeserializeVarint (sec_ops R1) 32 b1) as [[[e1 o1] t1]| |] eqn:E1, (DeserializeVarint (sec_ops R2) 32 b2) as [[[e2 o2] t2]| |] eqn:E2;
      cbn [agree] in Hv; try contradiction; cbn [bind]; try exact I.
    destruct Hv as ([= -> ->] & p' & Hq' & Hp). cbn [read_bound] in Hp.
    destruct e2; try (eapply agree_done; [exact Hq'|pay]). destruct o2 as [n|]; [|eapply agree_done; [exact Hq'|pay]].
    apply DV_nonneg in E2; [|lia]. eapply agree_bind; [apply Hadv; [exact Hq'|exact E2]|].
    intros k u1 u2 p2 Hq2 Hp2. eapply agree_done; [exact Hq2|pay].
Qed.

Lemma mk_section_q {S1 S2} {R1 : rops S1} {R2 : rops S2} {q bound} (ok : paying R1 R2 q bound) s1 s2 p n : q s1 s2 p ->
  qsec q bound (mk_section R1 s1 n) (mk_section R2 s2 n) p.
Proof.
  intros Hq. destruct (py_size _ _ _ _ ok _ _ _ Hq) as [E Hb]. unfold mk_section, qsec; cbn. rewrite E. repeat split; auto. lia.
Qed.

(** What is to be shown of every deserialize(). *)
Definition deser_pays (d : deserializer) : Prop := forall S1 S2 (R1 : rops S1) (R2 : rops S2) q bound, paying R1 R2 q bound ->
  forall v s1 s2 p, q s1 s2 p -> agree q (fun _ => p + 1) (d S1 R1 v s1) (d S2 R2 v s2).

Definition pops_pay {S1 S2} (R1 : rops S1) (R2 : rops S2) (q : S1 -> S2 -> Z -> Prop) : Prop := forall s1 s2 p, q s1 s2 p ->
  agree q (fun ob => match ob with Some _ => p - 1 | None => p + 1 end) (r_pop R1 s1) (r_pop R2 s2).

Lemma scalar_deserialize_pays sc {S1 S2} {R1 : rops S1} {R2 : rops S2} {q} (ok : pops_pay R1 R2 q) v s1 s2 p : q s1 s2 p ->
  agree q (fun '(e, _) => match e with NoErrors => p - 1 | _ => p + 1 end) (scalar_deserialize sc S1 R1 v s1) (scalar_deserialize sc S2 R2 v s2).
Proof.
  intros Hq. unfold scalar_deserialize. eapply agree_bind; [apply (scalar_pays ok); exact Hq|].
  intros [e o] t1 t2 p' Hq' Hp. cbn [read_bound] in Hp. destruct e; try destruct o; (eapply agree_done; [exact Hq'|pay]).
Qed.

Lemma scalar_deser_pays sc : deser_pays (scalar_deserialize sc).
Proof.
  intros S1 S2 R1 R2 q bound ok v s1 s2 p Hq. eapply agree_weaken; [apply (scalar_deserialize_pays sc (py_pop _ _ _ _ ok)); exact Hq|].
  intros [[] ?]; lia.
Qed.

Lemma bytes_deser_pays max : deser_pays (bytes_deserialize max).
Proof.
  intros S1 S2 R1 R2 q bound ok v s1 s2 p Hq. unfold bytes_deserialize.
  eapply agree_bind; [apply (DV_pays (py_pop _ _ _ _ ok)); exact Hq|]. intros [e o] t1 t2 p' Hq' Hp. cbn [read_bound] in Hp.
  destruct e; try (eapply agree_done; [exact Hq'|pay]). destruct o as [n|]; [|eapply agree_done; [exact Hq'|pay]].
  destruct (n <=? max); [|eapply agree_done; [exact Hq'|pay]].
  eapply agree_bind; [apply (bytes_loop_pays (py_pop _ _ _ _ ok)); exact Hq'|]. intros [len data] u1 u2 p2 Hq2 Hp2.
  eapply agree_done; [exact Hq2|pay].
Qed.

Lemma section_deser_pays d : deser_pays d -> deser_pays (deserialize_section d).
Proof.
  intros Hd S1 S2 R1 R2 q bound ok v s1 s2 p Hq. unfold deserialize_section.
  eapply agree_bind; [apply (DV_pays (py_pop _ _ _ _ ok)); exact Hq|]. intros [e o] t1 t2 p' Hq' Hp. cbn [read_bound] in Hp.
  destruct e; try (eapply agree_done; [exact Hq'|pay]). destruct o as [n|]; [|eapply agree_done; [exact Hq'|pay]].
  eapply agree_bind; [apply (Hd _ _ _ _ _ _ (sec_paying ok)), (mk_section_q ok); exact Hq'|].
  intros [e v'] u1 u2 p2 (Hq2 & _) Hp2. eapply agree_done; [exact Hq2|pay].
Qed.

Lemma elem_deser_pays t d w : deser_pays d -> deser_pays (elem_deserialize_check_type t d w).
Proof.
  intros Hd S1 S2 R1 R2 q bound ok v s1 s2 p Hq. unfold elem_deserialize_check_type.
  destruct t; (destruct (wt_eqb _ w); [|eapply agree_done; [exact Hq|pay]]).
  - eapply Hd; eauto.
  - eapply Hd; eauto.
  - eapply section_deser_pays; eauto.
Qed.

Lemma packed_loop_pays sc {S1 S2} {R1 : rops S1} {R2 : rops S2} {q} (ok : pops_pay R1 R2 q) fuel : forall x len data s1 s2 p,
  q s1 s2 p -> agree q (fun _ => p + 1) (rep_packed_loop sc fuel x len data R1 s1) (rep_packed_loop sc fuel x len data R2 s2).
Proof.
  induction fuel as [|fuel IH]; intros x len data s1 s2 p Hq; cbn [rep_packed_loop]; [exact I|].
  eapply agree_bind; [apply (scalar_deserialize_pays sc ok); exact Hq|]. intros [e x'] t1 t2 p' Hq' Hp.
  destruct (is_ok e) eqn:Ee; [destruct e; try discriminate|eapply agree_done; [exact Hq'|destruct e; lia]].
  apply agree_pure. intros [[e2 len'] data']. destruct (is_ok e2); [|eapply agree_done; [exact Hq'|pay]].
  eapply agree_weaken; [apply IH; exact Hq'|]. intros ?. cbv beta. lia.
Qed.

(** A section of no bytes does not call its parent at all. *)
Definition qempty {S1 S2} (q : S1 -> S2 -> Z -> Prop) (p0 : Z) (b1 : section S1) (b2 : section S2) (p : Z) : Prop :=
  q (sec_parent b1) (sec_parent b2) p0 /\ sec_size b1 <= 0 /\ sec_size b2 <= 0.

Lemma empty_pops {S1 S2} (R1 : rops S1) (R2 : rops S2) q p0 : pops_pay (sec_ops R1) (sec_ops R2) (qempty q p0).
Proof.
  intros b1 b2 p (Hq & H1 & H2). cbn [sec_ops r_pop]. unfold sec_pop.
  destruct (Z.ltb_spec 0 (sec_size b1)); [lia|]. destruct (Z.ltb_spec 0 (sec_size b2)); [lia|].
  apply (agree_done _ _ None b1 b2 p); [repeat split; assumption|lia].
Qed.

Lemma agree_keep {A S1 S2} (q : S1 -> S2 -> Z -> Prop) (B : A -> Z) r1 r2 : agree q B r1 r2 ->
  agree (fun s1 s2 p => q s1 s2 p /\ exists a, r1 = Done (a, s1) /\ r2 = Done (a, s2) /\ p <= B a) B r1 r2.
Proof.
  destruct r1 as [[a s1]| |], r2 as [[b s2]| |]; cbn [agree]; auto. intros (-> & p & Hq & Hp). split; [reflexivity|]. exists p. eauto 8.
Qed.

Lemma packed_deser_pays fuel sc : deser_pays (rep_deserialize_packed fuel sc).
Proof.
  intros S1 S2 R1 R2 q bound ok v s1 s2 p Hq. unfold rep_deserialize_packed. destruct v; try exact I.
  pose proof (DV_pays (py_pop _ _ _ _ ok) 32 _ _ _ Hq) as Hv.
  destruct (DeserializeVarint R1 32 s1) as [[[e1 o1] t1]| |] eqn:E1, (DeserializeVarint R2 32 s2) as [[[e o] t2]| |] eqn:E2;
      cbn [agree] in Hv; try contradiction; cbn [bind]; try exact I.
  destruct Hv as ([= -> ->] & p' & Hq' & Hp). cbn [read_bound] in Hp.
  destruct (is_ok e) eqn:Ee.
  - destruct e; try discriminate.
    eapply agree_bind; [apply (packed_loop_pays sc (py_pop _ _ _ _ (sec_paying ok))), (mk_section_q ok); exact Hq'|].
    intros [[e2 len'] data'] u1 u2 p2 (Hq2 & _) Hp2. eapply agree_done; [exact Hq2|]. lia.
  - assert (Hp' : p' <= p + 1) by (destruct e; try discriminate; lia). rewrite (DV_none _ _ _ _ _ _ E2 Ee).
    eapply agree_bind; [apply (packed_loop_pays sc (empty_pops R1 R2 q p')) with (p := 0)|].
    + unfold qempty, mk_section; cbn. repeat split; [exact Hq'|pay|lia].
    + intros [[e2 len'] data'] u1 u2 p2 (Hq2 & _) _. eapply agree_done; [exact Hq2|]. exact Hp'.
Qed.

Lemma unpacked_deser_pays t d : deser_pays d -> deser_pays (rep_deserialize_unpacked t d).
Proof.
  intros Hd S1 S2 R1 R2 q bound ok v s1 s2 p Hq. unfold rep_deserialize_unpacked. destruct v as [| | |len data|]; try exact I.
  destruct (len <? zlen data); [|eapply agree_done; [exact Hq|pay]]. destruct (rep_get len data len) as [i len'].
  apply agree_pure. intros x.
  assert (Hdirect : agree q (fun _ => p + 1)
    (let* (e, x', s1) := d S1 R1 x s1 in let* data' := aset data i x' in Done (e, VR len' data', s1))
    (let* (e, x', s1) := d S2 R2 x s2 in let* data' := aset data i x' in Done (e, VR len' data', s1))).
  { eapply agree_bind; [eapply Hd; eauto|]. intros [e x'] t1 t2 p' Hq' Hp. apply agree_pure. intros data'. eapply agree_done; [exact Hq'|pay]. }
  destruct t; [exact Hdirect|exact Hdirect|].
  eapply agree_bind; [apply (DV_pays (py_pop _ _ _ _ ok)); exact Hq|]. intros [e o] t1 t2 p' Hq' Hp. cbn [read_bound] in Hp.
  destruct e; try (eapply agree_done; [exact Hq'|pay]). destruct o as [n|]; [|eapply agree_done; [exact Hq'|pay]].
  eapply agree_bind; [apply (Hd _ _ _ _ _ _ (sec_paying ok)), (mk_section_q ok); exact Hq'|].
  intros [e x'] u1 u2 p2 (Hq2 & _) Hp2. apply agree_pure. intros data'. eapply agree_done; [exact Hq2|pay].
Qed.

Lemma rep_deser_pays fuel t d w : deser_pays d -> deser_pays (rep_deserialize_check_type fuel t d w).
Proof.
  intros Hd S1 S2 R1 R2 q bound ok v s1 s2 p Hq. unfold rep_deserialize_check_type.
  destruct (wt_eqb LENDEL w); [|eapply agree_done; [exact Hq|pay]].
  destruct t; [eapply packed_deser_pays; eauto|eapply unpacked_deser_pays; eauto..].
Qed.

Lemma field_pays fuel num k t d oi w pres v S1 S2 (R1 : rops S1) (R2 : rops S2) q bound s1 s2 p : deser_pays d -> paying R1 R2 q bound ->
  q s1 s2 p -> agree q (fun _ => p + 1) (field_deserialize fuel (num, k, t, d) oi w pres v R1 s1) (field_deserialize fuel (num, k, t, d) oi w pres v R2 s2).
Proof.
  intros Hd ok Hq. cbn [field_deserialize]. destruct k.
  - eapply agree_bind; [eapply (elem_deser_pays t d w Hd); eauto|]. intros [e v'] t1 t2 p' Hq' Hp. eapply agree_done; [exact Hq'|exact Hp].
  - apply agree_pure. intros pr. eapply agree_bind; [eapply (elem_deser_pays t d w Hd); eauto|]. intros [e v'] t1 t2 p' Hq' Hp. eapply agree_done; [exact Hq'|exact Hp].
  - eapply agree_bind; [eapply (rep_deser_pays fuel t d w Hd); eauto|]. intros [e v'] t1 t2 p' Hq' Hp. eapply agree_done; [exact Hq'|exact Hp].
  - eapply agree_done; [exact Hq|pay].
Qed.

Lemma skip_pays w S1 S2 (R1 : rops S1) (R2 : rops S2) q bound s1 s2 p : paying R1 R2 q bound -> q s1 s2 p ->
  agree q (fun _ => p + 1) (skip_unknown_field w R1 s1) (skip_unknown_field w R2 s2).
Proof.
  intros ok Hq. destruct w; cbn [skip_unknown_field]; unfold DeserializeDouble, DeserializeFloat;
    try (eapply agree_done; [exact Hq|pay]); try (apply (py_skip _ _ _ _ ok); exact Hq);
    (eapply agree_bind; [first [apply (DV_pays (py_pop _ _ _ _ ok)); exact Hq|apply (DF_pays (py_pop _ _ _ _ ok)); [lia|exact Hq]]|]);
    intros [e o] t1 t2 p' Hq' Hp; cbn [read_bound] in Hp; (eapply agree_done; [exact Hq'|destruct e; lia]).
Qed.

Section Msg.
Context (fuel : nat) (fs : list (Z * fkind * ety)) (os : list odesc).
Hypothesis Hf : Forall (fun f => deser_pays (deserialize fuel (snd f))) fs.
Hypothesis Ho : Forall (Forall (fun m => deser_pays (deserialize fuel (snd m)))) os.

Lemma oneof_pays ms id w o S1 S2 (R1 : rops S1) (R2 : rops S2) q bound s1 s2 p :
  Forall (fun m => deser_pays (deserialize fuel (snd m))) ms -> paying R1 R2 q bound -> q s1 s2 p ->
  agree q (fun _ => p + 1) (oneof_deserialize (map (fun '(n, t) => (n, t, deserialize fuel t)) ms) id w o R1 s1)
    (oneof_deserialize (map (fun '(n, t) => (n, t, deserialize fuel t)) ms) id w o R2 s2).
Proof.
  intros Hms ok Hq. unfold oneof_deserialize. set (o1 := if id =? fst o then o else _).
  eapply agree_bind with (q := q) (B := fun _ => p + 1).
  - rewrite (find_member_map (fun t => deserialize fuel t)). destruct (lookup ms (fst o1)) as [t|] eqn:E.
    + assert (Hd : deser_pays (deserialize fuel t)).
      { apply lookup_In in E. rewrite Forall_forall in Hms. exact (Hms _ E). }
      eapply agree_bind; [eapply (elem_deser_pays t _ w Hd); eauto|]. intros [e v'] t1 t2 p' Hq' Hp. eapply agree_done; [exact Hq'|exact Hp].
    + eapply agree_done; [exact Hq|pay].
  - intros [e o2] t1 t2 p' Hq' Hp. eapply agree_done; [exact Hq'|exact Hp].
Qed.

Lemma dispatch_pays id w v S1 S2 (R1 : rops S1) (R2 : rops S2) q bound s1 s2 p : paying R1 R2 q bound -> q s1 s2 p ->
  agree q (fun _ => p + 1) (msg_dispatch fuel (dtab fuel fs) (dotab fuel os) id w R1 v s1)
    (msg_dispatch fuel (dtab fuel fs) (dotab fuel os) id w R2 v s2).
Proof.
  intros ok Hq. destruct v as [| | | |pres vs ovs]; try exact I. cbn [msg_dispatch].
  destruct (find_field (dtab fuel fs) 0 0 id) as [[[ps oi] f]|] eqn:Ef.
  - apply find_field_inv in Ef. destruct Ef as (i & k & t & Ep & Eo & En & ->). apply nth_error_In in En.
    rewrite Forall_forall in Hf. specialize (Hf _ En). cbn in Hf.
    apply agree_pure. intros x. eapply agree_bind; [eapply field_pays; eauto|]. intros [[e pres'] x'] t1 t2 p' Hq' Hp.
    apply agree_pure. intros vs'. eapply agree_done; [exact Hq'|exact Hp].
  - destruct (find_oneof (dotab fuel os) 0 id) as [[ps dms]|] eqn:Eo.
    + apply find_oneof_inv in Eo. destruct Eo as (j & ms & t & _ & En & _ & ->). apply nth_error_In in En.
      rewrite Forall_forall in Ho. specialize (Ho _ En).
      apply agree_pure. intros o. eapply agree_bind; [eapply oneof_pays; eauto|]. intros [e o'] t1 t2 p' Hq' Hp.
      apply agree_pure. intros ovs'. eapply agree_done; [exact Hq'|exact Hp].
    + destruct (id =? 0); [eapply agree_done; [exact Hq|pay]|].
      eapply agree_bind; [eapply skip_pays; eauto|]. intros e t1 t2 p' Hq' Hp. eapply agree_done; [exact Hq'|exact Hp].
Qed.

Lemma loop_pays S1 S2 (R1 : rops S1) (R2 : rops S2) q bound : paying R1 R2 q bound -> forall n v s1 s2 p, q s1 s2 p ->
  agree q (fun _ => p + 1) (msg_loop fuel n (dtab fuel fs) (dotab fuel os) R1 v s1) (msg_loop fuel n (dtab fuel fs) (dotab fuel os) R2 v s2).
Proof.
  intros ok. induction n as [|n IH]; intros v s1 s2 p Hq; cbn [msg_loop]; [exact I|].
  eapply agree_bind; [apply (tag_pays (py_pop _ _ _ _ ok)); exact Hq|]. intros [e o] t1 t2 p' Hq' Hp. cbn [read_bound] in Hp.
  destruct e; try (eapply agree_done; [exact Hq'|pay]). destruct o as [[w id]|]; [|eapply agree_done; [exact Hq'|pay]].
  eapply agree_bind; [eapply dispatch_pays; eauto|]. intros [e v'] u1 u2 p2 Hq2 Hp2.
  destruct (is_ok e); [|eapply agree_done; [exact Hq2|pay]]. eapply agree_weaken; [apply IH; exact Hq2|]. intros ?. cbv beta. lia.
Qed.
End Msg.

Lemma deserialize_pays fuel t : deser_pays (deserialize fuel t).
Proof.
  induction t as [sc|st max|fs os Hf Ho] using ety_ind'; cbn [deserialize].
  - apply scalar_deser_pays.
  - apply bytes_deser_pays.
  - intros S1 S2 R1 R2 q bound ok v s1 s2 p Hq. unfold msg_deserialize. eapply loop_pays; eauto.
Qed.

(** ** The counted buffer *)

Definition qcount {S} (inv : S -> nat -> Prop) (s1 : S * Z) (s2 : S) (p : Z) : Prop :=
  fst s1 = s2 /\ exists m, inv s2 m /\ p = snd s1 + 2 * Z.of_nat m.

Lemma counted_paying {S} (R : rops S) inv bound : decoder_safe R inv True bound ->
  (forall s m n s1 m1, inv s m -> DeserializeVarint R 32 s = Done (NoErrors, Some n, s1) -> inv s1 m1 ->
     exists ok s2 m2, r_advance_n R s1 n = Done (ok, s2) /\ inv s2 m2 /\ (m2 <= m1)%nat) ->
  paying (counted_reader R) R (qcount inv) bound.
Proof.
  intros ok Hskip.
  assert (Hpop : forall s1 s2 p, qcount inv s1 s2 p ->
    agree (qcount inv) (fun ob => match ob with Some _ => p - 1 | None => p + 1 end) (r_pop (counted_reader R) s1) (r_pop R s2)).
  { intros [s k] s2 p (<- & m & Hi & ->). cbn [counted_reader r_pop fst snd] in *.
    destruct (ds_pop _ _ _ _ ok _ _ Hi) as (ob & s' & m' & E & Hi' & Hm). rewrite E. cbn [bind agree]. split; [reflexivity|].
    eexists. split; [split; [reflexivity|]; exists m'; split; [exact Hi'|reflexivity]|]. cbn [snd].
    destruct ob; [destruct Hm as [_ Hm]|]; specialize (Hm I); lia. }
  constructor.
  - intros [s k] s2 p (<- & m & Hi & ->). cbn [counted_reader r_get_size fst] in *. split; [reflexivity|]. apply (ds_size _ _ _ _ ok _ _ Hi).
  - exact Hpop.
  - intros [s k] s2 p n (<- & m & Hi & ->) Hn. cbn [counted_reader r_advance_n fst snd] in *. pose proof (ds_size _ _ _ _ ok _ _ Hi).
    destruct (ds_advance_n _ _ _ _ ok _ _ n Hi ltac:(lia)) as (o & s' & m' & E & Hi' & Hm). rewrite E. cbn [bind agree]. split; [reflexivity|].
    eexists. split; [split; [reflexivity|]; exists m'; split; [exact Hi'|reflexivity]|]. cbn [snd]. specialize (Hm I ltac:(lia)). lia.
  - intros s1 s2 p Hq. pose proof (DV_pays Hpop 32 _ _ _ Hq) as Hd. unfold skip_length_delimited.
    destruct Hq as (Es & m & Hi & Ep). 
    destruct (DeserializeVarint R 32 s2) as [[[e o] t2]| |] eqn:E2;
      destruct (DeserializeVarint (counted_reader R) 32 s1) as [[[e' o'] t1]| |]; cbn [agree bind] in *; try contradiction; auto.
    destruct Hd as (Eo & p' & Hq' & Hp). inversion Eo; subst e' o'. clear Eo. cbn [read_bound] in Hp.
    destruct e, o as [n|]; try (split; [reflexivity|]; exists p'; split; [exact Hq'|lia]).
    destruct t1 as [t k]. destruct Hq' as (Et & m1 & Hi1 & Ep1). cbn [fst snd] in *. subst t.
    destruct (Hskip _ _ _ _ _ Hi E2 Hi1) as (a & s2' & m2 & E & Hi2 & Hm). cbn [counted_reader r_advance_n fst snd]. rewrite E. cbn [bind agree].
    split; [reflexivity|]. eexists. split; [split; [reflexivity|]; exists m2; split; [exact Hi2|reflexivity]|]. cbn [snd]. lia.
Qed.

Lemma DV_range {S} {R : rops S} {inv : S -> nat -> Prop} {strict bound} (ok : decoder_safe R inv strict bound) s m e n s1 :
  inv s m -> DeserializeVarint R 32 s = Done (e, Some n, s1) -> 0 <= n < 2 ^ 32.
Proof.
  intros Hi H. unfold DeserializeVarint in H.
  destruct (DV_loop_safe (ds_pop _ _ _ _ ok) 32 (or_introl eq_refl) 10 0 0 0 s m Hi ltac:(lia) ltac:(reflexivity) ltac:(vm_compute; discriminate) ltac:(lia))
    as (r & b & t & s' & m' & E & _ & Ht & _).
  rewrite E in H. cbn [bind] in H. destruct r; [destruct (negb _)|]; inversion H; subst. exact Ht.
Qed.

Lemma counted_result {S} (R : rops S) inv bound fs os v s m fuel e v' s' : paying (counted_reader R) R (qcount inv) bound -> inv s m ->
  deserialize fuel (EMsg fs os) S R v s = Done (e, v', s') ->
  exists k, deserialize fuel (EMsg fs os) (S * Z)%type (counted_reader R) v (s, 0) = Done (e, v', (s', k)) /\ k <= 2 * Z.of_nat m + 1.
Proof.
  intros pay Hi H.
  assert (Hq : qcount inv (s, 0) s (2 * Z.of_nat m)) by (split; [reflexivity|]; exists m; split; [exact Hi|cbn; lia]).
  pose proof (deserialize_pays fuel (EMsg fs os) _ _ _ _ _ _ pay v _ _ _ Hq) as Ha. rewrite H in Ha.
  destruct (deserialize fuel (EMsg fs os) (S * Z)%type (counted_reader R) v (s, 0)) as [[[e1 v1] [s1 k]]| |]; cbn [agree] in Ha; try contradiction.
  destruct Ha as (Ea & p & (Es & m1 & _ & Ep) & Hp). cbn [fst snd] in *. inversion Ea; subst. exists k. split; [reflexivity|lia].
Qed.

Theorem decode_linear : forall fs os v, let t := EMsg fs os in desc_ok t -> wt t v ->
  forall S (R : rops S) inv, reader_safe R inv True -> (forall s m, inv s m -> r_get_size R s < 2 ^ 32) ->
  forall s m fuel, inv s m -> (m < fuel)%nat ->
  exists e v' s' k, deserialize fuel t S R v s = Done (e, v', s')
    /\ deserialize fuel t (S * Z)%type (counted_reader R) v (s, 0) = Done (e, v', (s', k)) /\ k <= 2 * Z.of_nat m + 1.
Proof.
  intros fs os v t Hok Hw S R inv ok Hz s m fuel Hi Hf.
  destruct (strict_terminates fs os v Hok Hw S R inv ok Hz s m fuel Hi Hf) as (e & v' & s' & H).
  pose proof (reader_safe_decoder R inv True ok Hz) as ok'.
  assert (Hp : paying (counted_reader R) R (qcount inv) (2 ^ 32 - 1)).
  { apply counted_paying; [exact ok'|]. intros s0 m0 n s1 m1 Hi0 E Hi1. pose proof (DV_range ok' _ _ _ _ _ Hi0 E) as Hn.
    destruct (rs_advance_n _ _ _ ok _ _ n Hi1 Hn) as (a & s2 & m2 & E2 & Hi2 & Hm). exists a, s2, m2. auto. }
  destruct (counted_result R inv _ fs os v s m fuel e v' s' Hp Hi H) as (k & Hk & Hl). exists e, v', s', k. auto.
Qed.

Theorem decode_linear_fixed : forall fs os v bytes fuel, let t := EMsg fs os in desc_ok t -> wt t v ->
  zlen bytes < 2 ^ 31 -> Forall is_byte bytes ->
  (forall pre l post, bytes = pre ++ l ++ post -> varint_wf 5 l ->
     zlen pre + zlen l + varint_value l mod 2 ^ 32 < 2 ^ 32) ->
  (length bytes < fuel)%nat ->
  exists e v' s' k, deserialize fuel t rfix (rfix_ops (zlen bytes)) v (rfix_of bytes) = Done (e, v', s')
    /\ deserialize fuel t (rfix * Z)%type (counted_reader (rfix_ops (zlen bytes))) v (rfix_of bytes, 0) = Done (e, v', (s', k))
    /\ k <= 2 * zlen bytes + 1.
Proof.
  intros fs os v bytes fuel t Hok Hw Hz Hb Hn Hf.
  destruct (nowrap_terminates fs os v bytes fuel Hok Hw Hz Hb Hn Hf) as (e & v' & s' & H).
  pose proof (nowrap_decoder (zlen bytes) bytes Hz Hb Hn) as ok'. pose proof (at_ok (zlen bytes) bytes ltac:(lia) Hb) as ok.
  assert (Hp : paying (counted_reader (rfix_ops (zlen bytes))) (rfix_ops (zlen bytes)) (qcount (at_inv bytes)) (zlen bytes)).
  { apply counted_paying; [exact ok'|]. intros s0 m0 n s1 m1 (l & H0 & ->) E Hi1.
    destruct (varint_trichotomy 5 l (ro_bytes _ _ ok _ _ H0)) as [(vb & rest & -> & Hwf) | [(hd & rest & -> & Hh & Hf') | (Hlen & Hf')]].
    - destruct (DeserializeVarint_wf ok 32 _ _ _ (or_introl eq_refl) Hwf H0) as (s1' & E1 & H1). rewrite E1 in E. assert (s1' = s1) by congruence. assert (n = varint_value vb mod 2 ^ 32) by congruence. subst s1' n. clear E.
      assert (Hpos : rf_r s1 + varint_value vb mod 2 ^ 32 < 2 ^ 32).
      { destruct H0 as (Hd & Hw' & Hr & Hl). destruct H1 as (Hd1 & Hw1 & Hr1 & Hl1).
        assert (E : bytes = firstn (Z.to_nat (rf_r s0)) bytes ++ vb ++ rest) by (rewrite Hl; symmetry; apply firstn_skipn).
        pose proof (Hn _ _ _ E Hwf) as Q. rewrite zlen_firstn in Q.
        pose proof (f_equal zlen Hl) as L0. pose proof (f_equal zlen Hl1) as L1. rewrite zlen_skipn in L0, L1. rewrite zlen_app in L0.
        pose proof (zlen_nonneg rest). lia. }
      destruct Hi1 as (l1 & (Hd1 & Hw1 & Hr1 & ->) & ->). cbn [rfix_ops r_advance_n]. unfold rfix_advance_n.
      set (n := varint_value vb mod 2 ^ 32) in *. assert (0 <= n) by (apply Z.mod_pos_bound; lia). rewrite u32_small by lia.
      destruct (Z.leb_spec (rf_r s1 + n) (rf_w s1)).
      + do 3 eexists. split; [reflexivity|]. split; [eexists; split; [|reflexivity]|].
        * unfold at_rel; cbn [rf_data rf_w rf_r]. repeat split; auto; lia.
        * cbn [rf_r]. rewrite !skipn_length. lia.
      + do 3 eexists. split; [reflexivity|]. split; [eexists; split; [|reflexivity]|reflexivity]. unfold at_rel. auto.
    - destruct (DeserializeVarint_over ok 32 _ _ _ (or_introl eq_refl) Hf' Hh H0) as (s1' & E1 & H1). rewrite E1 in E. discriminate E.
    - destruct (DeserializeVarint_end ok 32 _ _ (or_introl eq_refl) Hf' Hlen H0) as (s1' & E1 & H1). rewrite E1 in E. discriminate E. }
  assert (Hi : at_inv bytes (rfix_of bytes) (length bytes)) by (exists bytes; split; [apply rfix_of_at|reflexivity]).
  destruct (counted_result _ _ _ fs os v _ _ fuel e v' s' Hp Hi H) as (k & Hk & Hl). exists e, v', s', k. unfold zlen. auto.
Qed.

(** The counter changes nothing. *)
Definition qsame {S} (inv : S -> nat -> Prop) (s1 : S * Z) (s2 : S) (_ : Z) : Prop := fst s1 = s2 /\ exists m, inv s2 m.

Lemma counted_projects {S} (R : rops S) inv strict bound : decoder_safe R inv strict bound -> paying (counted_reader R) R (qsame inv) bound.
Proof.
  intros ok.
  assert (Hpop : forall s1 s2 p, qsame inv s1 s2 p ->
    agree (qsame inv) (fun ob => match ob with Some _ => p - 1 | None => p + 1 end) (r_pop (counted_reader R) s1) (r_pop R s2)).
  { intros [s k] s2 p (<- & m & Hi). cbn [counted_reader r_pop fst snd] in *. destruct (ds_pop _ _ _ _ ok _ _ Hi) as (ob & s' & m' & E & Hi' & _).
    rewrite E. cbn [bind agree]. split; [reflexivity|]. exists (p - 1). split; [split; [reflexivity|eauto]|]. destruct ob; lia. }
  assert (Hadv : forall s1 s2 p n, qsame inv s1 s2 p -> 0 <= n < 2 ^ 32 ->
    agree (qsame inv) (fun _ => p + 1) (r_advance_n (counted_reader R) s1 n) (r_advance_n R s2 n)).
  { intros [s k] s2 p n (<- & m & Hi) Hn. cbn [counted_reader r_advance_n fst snd] in *. destruct (ds_advance_n _ _ _ _ ok _ _ n Hi Hn) as (o & s' & m' & E & Hi' & _).
    rewrite E. cbn [bind agree]. split; [reflexivity|]. exists p. split; [split; [reflexivity|eauto]|]. lia. }
  constructor.
  - intros [s k] s2 p (<- & m & Hi). cbn [counted_reader r_get_size fst] in *. split; [reflexivity|]. apply (ds_size _ _ _ _ ok _ _ Hi).
  - exact Hpop.
  - intros s1 s2 p n Hq Hn. apply Hadv; [exact Hq|]. destruct Hq as (_ & m & Hi). pose proof (ds_size _ _ _ _ ok _ _ Hi). lia.
  - intros s1 s2 p Hq. pose proof (DV_pays Hpop 32 _ _ _ Hq) as Hd. unfold skip_length_delimited. destruct Hq as (Es & m & Hi).
    destruct (DeserializeVarint R 32 s2) as [[[e o] t2]| |] eqn:E2;
      destruct (DeserializeVarint (counted_reader R) 32 s1) as [[[e' o'] t1]| |]; cbn [agree bind] in *; try contradiction; auto.
    destruct Hd as (Eo & p' & Hq' & Hp). inversion Eo; subst e' o'. clear Eo.
    destruct e, o as [n|]; try (split; [reflexivity|]; exists p; split; [exact Hq'|lia]).
    eapply agree_bind; [apply (Hadv _ _ p n Hq'); exact (DV_range ok _ _ _ _ _ Hi E2)|]. intros a u1 u2 p2 Hq2 _. eapply agree_done with (p := p); [exact Hq2|lia].
Qed.

Theorem counted_same : forall t fuel v S (R : rops S) inv strict, reader_safe R inv strict -> (forall s m, inv s m -> r_get_size R s < 2 ^ 32) ->
  forall s m k, inv s m ->
  match deserialize fuel t (S * Z)%type (counted_reader R) v (s, k) with
  | Done (e, v', (s', _)) => deserialize fuel t S R v s = Done (e, v', s')
  | UB => deserialize fuel t S R v s = UB
  | Fuel => deserialize fuel t S R v s = Fuel
  end.
Proof.
  intros t fuel v S R inv strict ok Hz s m k Hi.
  pose proof (deserialize_pays fuel t _ _ _ _ _ _ (counted_projects R inv strict _ (reader_safe_decoder R inv strict ok Hz)) v (s, k) s 0
    (conj eq_refl (ex_intro _ m Hi))) as H.
  destruct (deserialize fuel t (S * Z)%type (counted_reader R) v (s, k)) as [[[e v'] [s' k']]| |], (deserialize fuel t S R v s) as [[[e2 v2] s2]| |];
    cbn [agree] in H; try contradiction; auto. destruct H as (E & p & (Es & _) & _). cbn [fst] in Es. inversion E; subst. reflexivity.
Qed.

Theorem decode_unbounded : forall fs os num, 0 < num < 2 ^ 29 -> ~ In num (field_numbers fs os) ->
  exists bytes, Forall is_byte bytes /\ zlen bytes <= 10 /\
  forall v fuel, wt (EMsg fs os) v ->
    deserialize fuel (EMsg fs os) (rfix * Z)%type (counted_reader (rfix_ops (zlen bytes))) v (rfix_of bytes, 0) = Fuel.
Proof.
  intros fs os num Hn Hin. destruct (endless_decode fs os num Hn Hin) as (bytes & Hb & Hl & H). exists bytes. split; [exact Hb|]. split; [exact Hl|].
  intros v fuel Hw. specialize (H v fuel Hw).
  pose proof (counted_same (EMsg fs os) fuel v rfix (rfix_ops (zlen bytes)) _ _ (rfix_safe (zlen bytes))) as Hc.
  specialize (Hc ltac:(intros s m (H1 & H2 & H3 & H4 & _); cbn [rfix_ops r_get_size]; lia) (rfix_of bytes) _ 0 (rfix_of_inv bytes ltac:(lia) Hb)).
  rewrite H in Hc. destruct (deserialize fuel (EMsg fs os) (rfix * Z)%type _ v _) as [[[e v'] [s' k']]| |]; try discriminate. reflexivity.
Qed.
