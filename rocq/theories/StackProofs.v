(** Proofs about the depth of the stack. *)
From Verif Require Import Base Buffers Wire Schema Fields Message Stack Spec SpecStack SpecRead Contracts BitLemmas Struct SerProofs Tables BufferProofs ReadProofs DecodeProofs.
From Coq Require Import ZifyBool ZifyNat ZifyN Lia.
Ltac Zify.zify_post_hook ::= Z.div_mod_to_equations.

(** ** Tables whose functions answer alike *)

Definition deq (d1 d2 : deserializer) : Prop := forall S (R : rops S) v s, d1 S R v s = d2 S R v s.

Lemma bind_ext {A B} (r : res A) (f g : A -> res B) : (forall a, f a = g a) -> bind r f = bind r g.
Proof. intros H. destruct r; cbn [bind]; auto. Qed.

Ltac ext := apply bind_ext; intros; repeat match goal with p : (_ * _)%type |- _ => destruct p end.

Lemma section_deq d1 d2 : deq d1 d2 -> deq (deserialize_section d1) (deserialize_section d2).
Proof.
  intros H S R v s. unfold deserialize_section. ext. destruct e; try reflexivity. destruct o; [|reflexivity]. now rewrite H.
Qed.

Lemma elem_deq t d1 d2 w : deq d1 d2 -> deq (elem_deserialize_check_type t d1 w) (elem_deserialize_check_type t d2 w).
Proof.
  intros H S R v s. unfold elem_deserialize_check_type. destruct t; (destruct (wt_eqb _ w); [|reflexivity]); auto.
  now apply section_deq.
Qed.

Lemma unpacked_deq t d1 d2 : deq d1 d2 -> deq (rep_deserialize_unpacked t d1) (rep_deserialize_unpacked t d2).
Proof.
  intros H S R v s. unfold rep_deserialize_unpacked. destruct v; try reflexivity.
  destruct (len <? zlen data); [|reflexivity]. destruct (rep_get len data len). ext.
  destruct t; [now rewrite H..|]. ext. destruct e; try reflexivity. destruct o; [|reflexivity]. now rewrite H.
Qed.

Lemma rep_deq fuel t d1 d2 w : deq d1 d2 -> deq (rep_deserialize_check_type fuel t d1 w) (rep_deserialize_check_type fuel t d2 w).
Proof.
  intros H S R v s. unfold rep_deserialize_check_type. destruct (wt_eqb LENDEL w); [|reflexivity].
  destruct t; [reflexivity|now apply unpacked_deq..].
Qed.

Lemma field_deq fuel num k t d1 d2 oi w pres v S (R : rops S) s : (k <> KRecursive -> deq d1 d2) ->
  field_deserialize fuel (num, k, t, d1) oi w pres v R s = field_deserialize fuel (num, k, t, d2) oi w pres v R s.
Proof.
  intros H. cbn [field_deserialize]. destruct k.
  - rewrite (elem_deq t d1 d2 w); [reflexivity|now apply H].
  - ext. rewrite (elem_deq t d1 d2 w); [reflexivity|now apply H].
  - rewrite (rep_deq fuel t d1 d2 w); [reflexivity|now apply H].
  - reflexivity.
Qed.

Section Tables.
Variables g1 g2 : ety -> deserializer.
Notation tab g fs := (map (fun '(num, k, t) => (num, k, t, g t)) fs).
Notation otab g os := (map (map (fun '(num, t) => (num, t, g t))) os).

Lemma find_field_two (fs : list fdesc) : forall pos oi id,
  match find_field (tab g1 fs) pos oi id with
  | Some (p, o, (n, k, t, d)) => d = g1 t /\ In (n, k, t) fs /\ find_field (tab g2 fs) pos oi id = Some (p, o, (n, k, t, g2 t))
  | None => find_field (tab g2 fs) pos oi id = None
  end.
Proof.
  induction fs as [|[[n k] t] fs IH]; intros pos oi id; cbn [map find_field]; [reflexivity|].
  destruct (n =? id); [cbn; auto|]. specialize (IH (Datatypes.S pos) (next_opt k oi) id).
  destruct (find_field (tab g1 fs) (Datatypes.S pos) (next_opt k oi) id) as [[[p o] [[[n' k'] t'] d]]|]; [|exact IH].
  destruct IH as (-> & Hi & E). split; [reflexivity|]. split; [now right|exact E].
Qed.

Lemma find_oneof_two (os : list odesc) : forall pos id,
  match find_oneof (otab g1 os) pos id with
  | Some (p, dms) => exists ms, In ms os /\ dms = map (fun '(num, t) => (num, t, g1 t)) ms
                     /\ find_oneof (otab g2 os) pos id = Some (p, map (fun '(num, t) => (num, t, g2 t)) ms)
  | None => find_oneof (otab g2 os) pos id = None
  end.
Proof.
  induction os as [|ms os IH]; intros pos id; cbn [map find_oneof]; [reflexivity|].
  rewrite !find_member_map. destruct (lookup ms id).
  - exists ms. cbn. auto.
  - specialize (IH (Datatypes.S pos) id). destruct (find_oneof (otab g1 os) (Datatypes.S pos) id) as [[p dms]|]; [|exact IH].
    destruct IH as (ms' & Hi & E1 & E2). exists ms'. cbn. auto.
Qed.

Lemma oneof_init_two (ms : odesc) id o :
  oneof_init (map (fun '(num, t) => (num, t, g1 t)) ms) id o = oneof_init (map (fun '(num, t) => (num, t, g2 t)) ms) id o.
Proof. unfold oneof_init, oneof_clear. rewrite !find_member_map. destruct (lookup ms id), (lookup ms (fst o)); reflexivity. Qed.

Lemma oneof_clear_two (ms : odesc) o :
  oneof_clear (map (fun '(num, t) => (num, t, g1 t)) ms) o = oneof_clear (map (fun '(num, t) => (num, t, g2 t)) ms) o.
Proof. unfold oneof_clear. rewrite !find_member_map. destruct (lookup ms (fst o)); reflexivity. Qed.

Lemma oneof_deq (ms : odesc) id w o S (R : rops S) s : Forall (fun m => deq (g1 (snd m)) (g2 (snd m))) ms ->
  oneof_deserialize (map (fun '(num, t) => (num, t, g1 t)) ms) id w o R s
  = oneof_deserialize (map (fun '(num, t) => (num, t, g2 t)) ms) id w o R s.
Proof.
  intros H. unfold oneof_deserialize. rewrite oneof_init_two. set (o1 := if id =? fst o then _ else _).
  rewrite !find_member_map. destruct (lookup ms (fst o1)) as [t|] eqn:El.
  - apply lookup_In in El. rewrite Forall_forall in H. specialize (H _ El). cbn [snd] in H.
    rewrite (elem_deq t _ _ w H). ext. now rewrite oneof_clear_two.
  - cbn [bind is_ok]. reflexivity.
Qed.

Lemma dispatch_deq fuel (fs : list fdesc) (os : list odesc) id w S (R : rops S) v s :
  Forall (fun f => snd (fst f) <> KRecursive -> deq (g1 (snd f)) (g2 (snd f))) fs ->
  Forall (Forall (fun m => deq (g1 (snd m)) (g2 (snd m)))) os ->
  msg_dispatch fuel (tab g1 fs) (otab g1 os) id w R v s = msg_dispatch fuel (tab g2 fs) (otab g2 os) id w R v s.
Proof.
  intros Hf Ho. destruct v as [| | | |pres vs ovs]; try reflexivity. cbn [msg_dispatch].
  pose proof (find_field_two fs 0 0 id) as Ef. destruct (find_field (tab g1 fs) 0 0 id) as [[[p o] [[[n k] t] d]]|].
  - destruct Ef as (-> & Hi & ->). rewrite Forall_forall in Hf. specialize (Hf _ Hi). cbn [fst snd] in Hf.
    ext. now rewrite (field_deq fuel n k t _ _ o w pres a S R s Hf).
  - rewrite Ef. pose proof (find_oneof_two os 0 id) as Eo. destruct (find_oneof (otab g1 os) 0 id) as [[p dms]|].
    + destruct Eo as (ms & Hi & -> & ->). rewrite Forall_forall in Ho. specialize (Ho _ Hi). ext. now rewrite (oneof_deq ms).
    + now rewrite Eo.
Qed.

Lemma msg_deq fuel (fs : list fdesc) (os : list odesc) :
  Forall (fun f => snd (fst f) <> KRecursive -> deq (g1 (snd f)) (g2 (snd f))) fs ->
  Forall (Forall (fun m => deq (g1 (snd m)) (g2 (snd m)))) os ->
  deq (msg_deserialize fuel (tab g1 fs) (otab g1 os)) (msg_deserialize fuel (tab g2 fs) (otab g2 os)).
Proof.
  intros Hf Ho S R v s. unfold msg_deserialize. generalize fuel at 2 4. intros n. revert v s.
  induction n as [|n IH]; intros v s; cbn [msg_loop]; [reflexivity|]. ext.
  destruct e; try reflexivity. destruct o as [[w id]|]; [|reflexivity].
  rewrite (dispatch_deq fuel fs os id w S R v s0 Hf Ho). ext. destruct (is_ok e); [apply IH|reflexivity].
Qed.
End Tables.

(** ** The depth of the members *)

Lemma highest_in n l : In n l -> (n <= highest l)%nat.
Proof. induction l as [|m l IH]; cbn [In highest]; [tauto|]. intros [->|H]; [lia|]. specialize (IH H). lia. Qed.

Lemma highest_reached l n : (n < highest l)%nat -> exists m, In m l /\ (n < m)%nat.
Proof.
  induction l as [|m l IH]; cbn [highest]; [lia|]. intros H. destruct (Nat.lt_ge_cases n m); [exists m; cbn; auto|].
  destruct IH as (m' & Hi & Hm); [lia|]. exists m'. cbn. auto.
Qed.

Lemma depth_field fs os num k t : In (num, k, t) fs -> k <> KRecursive -> (S (depth t) <= depth (EMsg fs os))%nat.
Proof.
  intros Hi Hk. cbn [depth]. apply le_n_S. etransitivity; [|apply Nat.le_max_l]. apply highest_in.
  apply in_map_iff. exists (num, k, t). split; [destruct k; congruence|exact Hi].
Qed.

Lemma depth_member fs os ms num t : In ms os -> In (num, t) ms -> (S (depth t) <= depth (EMsg fs os))%nat.
Proof.
  intros Hi Hm. cbn [depth]. apply le_n_S. etransitivity; [|apply Nat.le_max_r].
  etransitivity; [|apply highest_in; apply in_map; exact Hi]. apply highest_in.
  apply in_map_iff. exists (num, t). split; [reflexivity|exact Hm].
Qed.

(** ** deserialize *)

Theorem deserialize_depth fuel t : forall levels, (depth t <= levels)%nat -> deq (deserialize_within levels fuel t) (deserialize fuel t).
Proof.
  induction t as [sc|st max|fs os Hf Ho] using ety_ind'; intros levels H.
  - intros S R v s. reflexivity.
  - intros S R v s. reflexivity.
  - destruct levels as [|l]; [cbn in H; lia|]. cbn [deserialize_within deserialize].
    apply msg_deq.
    + rewrite Forall_forall in *. intros [[num k] t] Hi Hk. cbn [fst snd] in *. apply (Hf _ Hi).
      pose proof (depth_field fs os _ _ _ Hi Hk). cbn [snd]. lia.
    + rewrite Forall_forall in *. intros ms Hi. specialize (Ho _ Hi). rewrite Forall_forall in *. intros [num t] Hm. cbn [snd].
      apply (Ho _ Hm). pose proof (depth_member fs os _ _ _ Hi Hm). cbn [snd]. lia.
Qed.

(** ** serialize *)

Definition seq (s1 s2 : serializer) : Prop := forall S (W : wops S) s, s1 S W s = s2 S W s.

Lemma size_seq s1 s2 : seq s1 s2 -> serialized_size s1 = serialized_size s2.
Proof. intros H. unfold serialized_size. now rewrite H. Qed.

Lemma elem_seq t f1 f2 v num opt : (forall v, seq (f1 v) (f2 v)) -> seq (elem_serialize_with_id t f1 v num opt) (elem_serialize_with_id t f2 v num opt).
Proof.
  intros H S W s. unfold elem_serialize_with_id. destruct t; try reflexivity. rewrite (size_seq _ _ (H v)). ext.
  destruct (_ || _); [|reflexivity]. ext. destruct (is_ok e); [|reflexivity]. ext. destruct (is_ok e0); [|reflexivity].
  destruct (_ <=? _); [apply H|reflexivity].
Qed.

Lemma packed_seq f1 f2 n : (forall v, seq (f1 v) (f2 v)) -> forall i data S (W : wops S) s,
  rep_serialize_packed f1 n i data W s = rep_serialize_packed f2 n i data W s.
Proof.
  intros H. induction n as [|n IH]; intros i data S W s; cbn [rep_serialize_packed]; [reflexivity|]. ext. rewrite (H a). ext.
  destruct (is_ok e); [apply IH|reflexivity].
Qed.

Lemma unpacked_seq f1 f2 num n : (forall v, seq (f1 v) (f2 v)) -> forall i data S (W : wops S) s,
  rep_serialize_unpacked f1 num n i data W s = rep_serialize_unpacked f2 num n i data W s.
Proof.
  intros H. induction n as [|n IH]; intros i data S W s; cbn [rep_serialize_unpacked]; [reflexivity|]. ext.
  rewrite (size_seq _ _ (H a)). ext. ext.
  match goal with |- bind ?x _ = bind ?y _ => assert (E : x = y); [|rewrite E] end.
  { destruct (is_ok e); [|reflexivity]. ext. destruct (is_ok e0 && (0 <? a0)); [apply H|reflexivity]. }
  ext. destruct (is_ok e0); [apply IH|reflexivity].
Qed.

Lemma rep_seq t f1 f2 v num opt : (forall v, seq (f1 v) (f2 v)) -> seq (rep_serialize_with_id t f1 v num opt) (rep_serialize_with_id t f2 v num opt).
Proof.
  intros H S W s. unfold rep_serialize_with_id. destruct v; try reflexivity. destruct (is_packed t).
  - rewrite (size_seq _ (fun S W s => rep_serialize_packed f2 (Z.to_nat len) 0 data W s)) by (intros S' W' s'; now apply packed_seq). ext.
    destruct (_ || _); [|reflexivity]. ext. destruct (is_ok e); [|reflexivity]. ext. destruct (is_ok e0); [|reflexivity].
    destruct (_ <=? _); [now apply packed_seq|reflexivity].
  - rewrite (size_seq _ (fun S W s => rep_serialize_unpacked f2 num (Z.to_nat len) 0 data W s)) by (intros S' W' s'; now apply unpacked_seq). ext.
    destruct (_ <=? _); [now apply unpacked_seq|reflexivity].
Qed.

Lemma fields_seq (g1 g2 : ety -> value -> serializer) (fs : list fdesc) S (W : wops S) :
  Forall (fun f => snd (fst f) <> KRecursive -> forall v, seq (g1 (snd f) v) (g2 (snd f) v)) fs -> forall oi pres vs s,
  fields_serialize (map (fun '(num, k, t) => (num, k, t, g1 t)) fs) oi pres vs W s
  = fields_serialize (map (fun '(num, k, t) => (num, k, t, g2 t)) fs) oi pres vs W s.
Proof.
  induction 1 as [|[[num k] t] fs H _ IH]; intros oi pres vs s; cbn [map fields_serialize]; [reflexivity|].
  destruct vs as [|v vs]; [reflexivity|]. cbn [fst snd] in H.
  assert (E : field_serialize (num, k, t, g1 t) oi pres v S W s = field_serialize (num, k, t, g2 t) oi pres v S W s).
  { cbn [field_serialize]. destruct k.
    - specialize (H ltac:(discriminate)). destruct t; [|now apply elem_seq..].
      destruct v; reflexivity.
    - specialize (H ltac:(discriminate)). ext. destruct a; [now apply elem_seq|reflexivity].
    - specialize (H ltac:(discriminate)). now apply rep_seq.
    - reflexivity. }
  rewrite E. ext. destruct (is_ok e); [apply IH|reflexivity].
Qed.

Lemma oneofs_seq (g1 g2 : ety -> value -> serializer) (os : list odesc) S (W : wops S) :
  Forall (Forall (fun m => forall v, seq (g1 (snd m) v) (g2 (snd m) v))) os -> forall vs s,
  oneofs_serialize (map (map (fun '(num, t) => (num, t, g1 t))) os) vs W s
  = oneofs_serialize (map (map (fun '(num, t) => (num, t, g2 t))) os) vs W s.
Proof.
  induction 1 as [|ms os H _ IH]; intros vs s; cbn [map oneofs_serialize]; [reflexivity|].
  destruct vs as [|[which v] vs]; [reflexivity|]. rewrite !find_member_map.
  destruct (lookup ms which) as [t|] eqn:El.
  - apply lookup_In in El. rewrite Forall_forall in H. specialize (H _ El). cbn [snd] in H.
    rewrite (elem_seq t _ _ v which true H). ext. destruct (is_ok e); [apply IH|reflexivity].
  - cbn [bind is_ok]. apply IH.
Qed.

Theorem serialize_depth t : forall levels v, (depth t <= levels)%nat -> seq (serialize_within levels t v) (serialize t v).
Proof.
  induction t as [sc|st max|fs os Hf Ho] using ety_ind'; intros levels v H.
  - intros S W s. reflexivity.
  - intros S W s. reflexivity.
  - destruct levels as [|l]; [cbn in H; lia|]. cbn [serialize_within serialize]. intros S W s. unfold msg_serialize.
    destruct v as [| | | |pres vs ovs]; try reflexivity.
    rewrite (fields_seq (serialize_within l) serialize).
    + ext. destruct (is_ok e); [|reflexivity]. apply oneofs_seq.
      rewrite Forall_forall in *. intros ms Hi. specialize (Ho _ Hi). rewrite Forall_forall in *. intros [num t] Hm v. cbn [snd].
      apply (Ho _ Hm). pose proof (depth_member fs os _ _ _ Hi Hm). cbn [snd]. lia.
    + rewrite Forall_forall in *. intros [[num k] t] Hi Hk v. cbn [fst snd] in *. apply (Hf _ Hi).
      pose proof (depth_field fs os _ _ _ Hi Hk). cbn [snd]. lia.
Qed.

(** ** Input that needs the whole depth *)

Definition reaches (t : ety) (levels : nat) (bytes : list Z) : Prop :=
  forall S (R : rops S) rel, reader_ok R rel -> forall s tail, rel s (bytes ++ tail) -> tail = [] -> forall fuel, (1 < fuel)%nat ->
    deserialize_within levels fuel t S R (default_value t) s = Fuel
    /\ exists v s', deserialize fuel t S R (default_value t) s = Done (NoErrors, v, s') /\ rel s' [].

Lemma zlen_varint32 v : 0 <= v < 2 ^ 32 -> zlen (varint v) <= 5.
Proof.
  intros H. destruct (varint_varint32 v H) as ((init & last & E & Hl & _) & _). unfold zlen. change (vbytes 32) with 5 in Hl. lia.
Qed.

Lemma nth_map_error {A B} (f : A -> B) l i x : nth_error l i = Some x -> nth_error (map f l) i = Some (f x).
Proof. intros H. now apply map_nth_error. Qed.

(** What a nested message's part of the input makes of a field that is given the function [d]. *)
Definition nested (num : Z) (p : list Z) : list Z := varint (num * 8 + 2) ++ varint (zlen p) ++ p.

Lemma section_reach (fs' : list fdesc) os' p levels : let t' := EMsg fs' os' in zlen p < 2 ^ 32 -> reaches t' levels p ->
  forall S (R : rops S) rel, reader_ok R rel -> forall s, rel s (varint (zlen p) ++ p) -> forall fuel, (1 < fuel)%nat ->
  deserialize_section (deserialize_within levels fuel t') S R (default_value t') s = Fuel
  /\ exists v s', deserialize_section (deserialize fuel t') S R (default_value t') s = Done (NoErrors, v, s') /\ rel s' [].
Proof.
  intros t' Hp Hr S R rel ok s Hs fuel Hfu. unfold deserialize_section. pose proof (zlen_nonneg p).
  destruct (varint_varint32 (zlen p) ltac:(lia)) as [Hwf Hv].
  destruct (DeserializeVarint_wf ok 32 _ p s ltac:(now left) Hwf Hs) as (s1 & -> & Hs1). cbn [bind]. rewrite Hv.
  assert (Hsec : sec_rel rel [] (mk_section R s1 (zlen p)) p) by (apply mk_section_rel; [exact ok|now rewrite app_nil_r]).
  destruct (Hr _ _ _ (sec_ok R rel [] ok) (mk_section R s1 (zlen p)) [] ltac:(now rewrite app_nil_r) eq_refl fuel Hfu) as (E1 & v & s' & E2 & Hs').
  rewrite E1, E2. cbn [bind]. split; [reflexivity|]. exists v, (sec_parent s'). split; [reflexivity|].
  destruct Hs' as (H1 & _). exact H1.
Qed.

Lemma unpacked_reach (fs' : list fdesc) os' p levels max : let t' := EMsg fs' os' in zlen p < 2 ^ 32 -> capacity_ok max -> reaches t' levels p ->
  forall S (R : rops S) rel, reader_ok R rel -> forall s, rel s (varint (zlen p) ++ p) -> forall fuel, (1 < fuel)%nat ->
  rep_deserialize_unpacked t' (deserialize_within levels fuel t') S R (VR 0 (zrepeat (default_value t') max)) s = Fuel
  /\ exists v s', rep_deserialize_unpacked t' (deserialize fuel t') S R (VR 0 (zrepeat (default_value t') max)) s = Done (NoErrors, v, s') /\ rel s' [].
Proof.
  intros t' Hp Hm Hr S R rel ok s Hs fuel Hfu. unfold rep_deserialize_unpacked. unfold capacity_ok in Hm. pose proof (zlen_nonneg p).
  assert (Hz : zlen (zrepeat (default_value t') max) = max) by (unfold zlen, zrepeat; rewrite repeat_length; lia).
  rewrite Hz. destruct (Z.ltb_spec 0 max); [|lia].
  destruct (rep_get 0 (zrepeat (default_value t') max) 0) as [i len'] eqn:Eg. unfold rep_get in Eg. rewrite Hz in Eg.
  rewrite u32_small in Eg by (unfold is_u32; lia). assert (i = 0) as -> by (injection Eg; lia).
  assert (Ea : aget (zrepeat (default_value t') max) 0 = Done (default_value t')).
  { change 0 with (Z.of_nat 0). apply aget_nat. unfold zrepeat. destruct (Z.to_nat max) eqn:E; [lia|reflexivity]. }
  rewrite Ea. cbn [bind]. unfold t' at 1 3. cbn match.
  destruct (varint_varint32 (zlen p) ltac:(lia)) as [Hwf Hv].
  destruct (DeserializeVarint_wf ok 32 _ p s ltac:(now left) Hwf Hs) as (s1 & -> & Hs1). cbn [bind]. rewrite Hv.
  assert (Hsec : sec_rel rel [] (mk_section R s1 (zlen p)) p) by (apply mk_section_rel; [exact ok|now rewrite app_nil_r]).
  destruct (Hr _ _ _ (sec_ok R rel [] ok) (mk_section R s1 (zlen p)) [] ltac:(now rewrite app_nil_r) eq_refl fuel Hfu) as (E1 & v & s' & E2 & Hs').
  fold t' in E1, E2. fold t'. rewrite E1, E2. cbn [bind]. split; [reflexivity|].
  assert (Es : exists d, aset (zrepeat (default_value t') max) 0 v = Done d).
  { change 0 with (Z.of_nat 0). rewrite aset_nat; [eauto|]. unfold zrepeat. rewrite repeat_length. lia. }
  destruct Es as (d & ->). cbn [bind]. exists (VR len' d), (sec_parent s'). split; [reflexivity|].
  destruct Hs' as (H1 & _). exact H1.
Qed.


Lemma find_oneof_any (g : ety -> deserializer) (os : list odesc) : forall pos j ms num t, NoDup (flat_map (map fst) os) ->
  nth_error os j = Some ms -> lookup ms num = Some t ->
  find_oneof (map (map (fun '(num, t) => (num, t, g t))) os) pos num = Some ((pos + j)%nat, map (fun '(num, t) => (num, t, g t)) ms).
Proof.
  intros pos j ms num t Hd Hn Hl. pose proof (find_oneof_gen 0 os pos j ms num t Hd Hn Hl) as E.
  revert pos j Hd Hn E. induction os as [|ms' os IH]; intros pos [|j] Hd Hn E; cbn [nth_error] in Hn; try discriminate;
    cbn [dotab map find_oneof] in *; rewrite find_member_map in *.
  - injection Hn as ->. rewrite Hl, Nat.add_0_r. reflexivity.
  - destruct (lookup ms' num); [injection E; lia|]. cbn [flat_map] in Hd. apply NoDup_app_inv in Hd. destruct Hd as (_ & Hd & _).
    rewrite (IH (Datatypes.S pos) j Hd Hn); [f_equal; f_equal; lia|]. unfold dotab. rewrite E. f_equal. f_equal. lia.
Qed.

(** One record with a nested message: the first call of the message loop reaches the nested deserialize(), and without
    the limit the loop ends at the end of the input. *)
Lemma field_reach (fs : list fdesc) (os : list odesc) i num k (fs' : list fdesc) os' p levels : let t := EMsg fs os in let t' := EMsg fs' os' in
  desc_ok t -> nth_error fs i = Some (num, k, t') -> k <> KRecursive -> zlen p < 2 ^ 32 -> reaches t' levels p ->
  reaches t (Datatypes.S levels) (nested num p).
Proof.
  intros t t' Hd Hn Hk Hp Hr S R rel ok s tail Hs -> fuel Hfu. rewrite app_nil_r in Hs. unfold nested in Hs.
  destruct (desc_field _ _ _ _ _ _ Hd Hn) as (_ & Hnum & Hcap).
  assert (Hfield : forall s1, rel s1 (varint (zlen p) ++ p) ->
    field_deserialize fuel (num, k, t', deserialize_within levels fuel t') (optix fs i) LENDEL (zrepeat 0 (presence_size (n_optional fs)))
      (default_field k t') R s1 = Fuel
    /\ exists pr v s2, field_deserialize fuel (num, k, t', deserialize fuel t') (optix fs i) LENDEL (zrepeat 0 (presence_size (n_optional fs)))
      (default_field k t') R s1 = Done (NoErrors, pr, v, s2) /\ rel s2 []).
  { intros s1 Hs1.
    assert (Hchk : forall d v, elem_deserialize_check_type t' d LENDEL S R v s1 = deserialize_section d S R v s1) by reflexivity.
    assert (Hrep : forall d v, rep_deserialize_check_type fuel t' d LENDEL S R v s1 = rep_deserialize_unpacked t' d S R v s1) by reflexivity.
    destruct k; [..|congruence]; cbn [field_deserialize default_field default_field_of].
    - destruct (section_reach fs' os' p levels Hp Hr S R rel ok s1 Hs1 fuel Hfu) as (E1 & v & s2 & E2 & H2).
      fold t' in E1, E2. rewrite !Hchk, E1, E2.
      split; [reflexivity|]. cbn [bind]. eauto 6.
    - destruct (section_reach fs' os' p levels Hp Hr S R rel ok s1 Hs1 fuel Hfu) as (E1 & v & s2 & E2 & H2).
      destruct (default_ok t Hd) as (Hw & _). cbn [t default_value wt] in Hw. destruct Hw as (Hl & Hu & _). apply all_Forall in Hu.
      destruct (presence_set_ok _ (optix fs i) (n_optional fs) (optix_bound fs i num t' Hn) Hl Hu) as (pr & -> & _). cbn [bind].
      fold t' in E1, E2. rewrite !Hchk, E1, E2.
      split; [reflexivity|]. cbn [bind]. eauto 6.
    - destruct (unpacked_reach fs' os' p levels max_length Hp Hcap Hr S R rel ok s1 Hs1 fuel Hfu) as (E1 & v & s2 & E2 & H2).
      fold t' in E1, E2. rewrite !Hrep, E1, E2.
      split; [reflexivity|]. cbn [bind]. eauto 6. }
  destruct fuel as [|[|fuel]]; [lia..|].
  destruct (varint_varint32 (num * 8 + 2) ltac:(lia)) as [Hwf Hv].
  destruct (DeserializeTag_wf ok (varint (num * 8 + 2)) (varint (zlen p) ++ p) s num LENDEL (conj Hwf Hv) ltac:(lia) Hs) as (s1 & Et & Hs1).
  destruct (Hfield s1 Hs1) as (E1 & pr & v & s2 & E2 & Hs2).
  pose proof (desc_find_field (Datatypes.S (Datatypes.S fuel)) _ _ _ _ _ _ Hd Hn) as Ef.
  pose proof (find_field_two (deserialize (Datatypes.S (Datatypes.S fuel))) (deserialize_within levels (Datatypes.S (Datatypes.S fuel))) fs 0 0 num) as Ew.
  unfold dtab in Ef. rewrite Ef in Ew. destruct Ew as (_ & _ & Ew).
  assert (Ea : aget (map (fun '(_, k, t) => default_field_of k (default_value t)) fs) (Z.of_nat i) = Done (default_field k t')).
  { apply aget_nat. now apply (map_nth_error (fun '(_, k, t) => default_field_of k (default_value t))) in Hn. }
  split.
  - cbn [t deserialize_within default_value]. unfold msg_deserialize. cbn [msg_loop]. rewrite Et. cbn [bind msg_dispatch]. rewrite Ew, Ea. cbn [bind].
    rewrite E1. reflexivity.
  - cbn [t deserialize default_value]. unfold msg_deserialize. cbn [msg_loop]. rewrite Et. cbn [bind msg_dispatch]. rewrite Ef, Ea. cbn [bind].
    rewrite E2. cbn [bind]. rewrite aset_nat by (rewrite map_length; apply nth_error_Some; congruence). cbn [bind is_ok].
    destruct (DeserializeTag_nil ok s2 Hs2) as (s3 & -> & Hs3). cbn [bind]. eauto.
Qed.

Lemma member_reach (fs : list fdesc) (os : list odesc) j ms num (fs' : list fdesc) os' p levels : let t := EMsg fs os in let t' := EMsg fs' os' in
  desc_ok t -> nth_error os j = Some ms -> lookup ms num = Some t' -> zlen p < 2 ^ 32 -> reaches t' levels p ->
  reaches t (Datatypes.S levels) (nested num p).
Proof.
  intros t t' Hd Hn Hlk Hp Hr S R rel ok s tail Hs -> fuel Hfu. rewrite app_nil_r in Hs. unfold nested in Hs.
  destruct (desc_member _ _ _ _ _ _ Hd Hn Hlk) as (_ & Hnum).
  assert (Hone : forall s1, rel s1 (varint (zlen p) ++ p) ->
    oneof_deserialize (map (fun '(num, t) => (num, t, deserialize_within levels fuel t)) ms) num LENDEL (0, VIndet) R s1 = Fuel
    /\ exists o s2, oneof_deserialize (map (fun '(num, t) => (num, t, deserialize fuel t)) ms) num LENDEL (0, VIndet) R s1 = Done (NoErrors, o, s2)
       /\ rel s2 []).
  { intros s1 Hs1. destruct (section_reach fs' os' p levels Hp Hr S R rel ok s1 Hs1 fuel Hfu) as (E1 & v & s2 & E2 & H2). fold t' in E1, E2.
    assert (Hinit : forall g : ety -> deserializer, (if num =? 0 then (0, VIndet) else oneof_init (map (fun '(num, t) => (num, t, g t)) ms) num (0, VIndet))
      = (num, default_value t')).
    { intros g. destruct (Z.eqb_spec num 0); [lia|]. unfold oneof_init. rewrite (find_member_map g), Hlk. reflexivity. }
    assert (Hchk : forall d, elem_deserialize_check_type t' d LENDEL S R (default_value t') s1 = deserialize_section d S R (default_value t') s1).
    { intros d. reflexivity. }
    unfold oneof_deserialize. cbn [fst snd].
    rewrite (Hinit (deserialize_within levels fuel)), (Hinit (deserialize fuel)). cbn [fst snd].
    rewrite !find_member_map, Hlk, !Hchk, E1, E2.
    split; [reflexivity|]. cbn [bind]. eauto. }
  destruct fuel as [|[|fuel]]; [lia..|].
  destruct (varint_varint32 (num * 8 + 2) ltac:(lia)) as [Hwf Hv].
  destruct (DeserializeTag_wf ok (varint (num * 8 + 2)) (varint (zlen p) ++ p) s num LENDEL (conj Hwf Hv) ltac:(lia) Hs) as (s1 & Et & Hs1).
  destruct (Hone s1 Hs1) as (E1 & o & s2 & E2 & Hs2).
  set (n := Datatypes.S (Datatypes.S fuel)) in *.
  destruct (desc_find_oneof n _ _ _ _ _ _ Hd Hn Hlk) as (Ef & Eo). unfold dtab in Ef. unfold dotab in Eo.
  pose proof (find_field_two (deserialize n) (deserialize_within levels n) fs 0 0 num) as Ew. rewrite Ef in Ew.
  assert (Ewo : find_oneof (map (map (fun '(num, t) => (num, t, deserialize_within levels n t))) os) 0 num
                = Some (j, map (fun '(num, t) => (num, t, deserialize_within levels n t)) ms)).
  { destruct Hd as (Hnd & _). apply NoDup_app_inv in Hnd. destruct Hnd as (_ & Hnd & _). now apply (find_oneof_any (deserialize_within levels n) os 0 j ms num t'). }
  assert (Ea : aget (map (fun _ : odesc => (0, VIndet)) os) (Z.of_nat j) = Done (0, VIndet)).
  { apply aget_nat. now apply (map_nth_error (fun _ : odesc => (0, VIndet))) in Hn. }
  split.
  - cbn [t deserialize_within default_value]. unfold msg_deserialize. unfold n at 2. cbn [msg_loop]. rewrite Et. cbn [bind msg_dispatch]. rewrite Ew, Ewo, Ea. cbn [bind].
    rewrite E1. reflexivity.
  - cbn [t deserialize default_value]. unfold msg_deserialize. unfold n at 2. cbn [msg_loop]. rewrite Et. cbn [bind msg_dispatch]. rewrite Ef, Eo, Ea. cbn [bind].
    rewrite E2. cbn [bind]. rewrite aset_nat by (rewrite map_length; apply nth_error_Some; congruence). cbn [bind is_ok].
    destruct (DeserializeTag_nil ok s2 Hs2) as (s3 & -> & Hs3). cbn [bind]. eauto.
Qed.

Lemma depth_has (fs : list fdesc) (os : list odesc) n : (Datatypes.S n < depth (EMsg fs os))%nat ->
  (exists i num k t, nth_error fs i = Some (num, k, t) /\ k <> KRecursive /\ (n < depth t)%nat)
  \/ (exists j ms i num t, nth_error os j = Some ms /\ nth_error ms i = Some (num, t) /\ (n < depth t)%nat).
Proof.
  cbn [depth]. intros H. apply Nat.succ_lt_mono in H. apply Nat.max_lt_iff in H. destruct H as [H|H].
  - left. apply highest_reached in H. destruct H as (m & Hi & Hm). apply in_map_iff in Hi. destruct Hi as ([[num k] t] & E & Hi).
    apply In_nth_error in Hi. destruct Hi as (i & Hi). exists i, num, k, t. split; [exact Hi|].
    destruct k; subst m; try (split; [discriminate|exact Hm]). lia.
  - right. apply highest_reached in H. destruct H as (m & Hi & Hm). apply in_map_iff in Hi. destruct Hi as (ms & <- & Hi).
    apply highest_reached in Hm. destruct Hm as (m & Hj & Hm). apply in_map_iff in Hj. destruct Hj as ([num t] & <- & Hj).
    apply In_nth_error in Hi, Hj. destruct Hi as (j & Hi), Hj as (i & Hj). exists j, ms, i, num, t. auto.
Qed.

Lemma lookup_nodup {A} (ms : list (Z * A)) i num x : NoDup (map fst ms) -> nth_error ms i = Some (num, x) -> lookup ms num = Some x.
Proof.
  revert i. induction ms as [|[n y] ms IH]; intros [|i] Hd Hn; cbn [nth_error map fst lookup] in *; try discriminate.
  - injection Hn as -> ->. now rewrite Z.eqb_refl.
  - inversion Hd as [|? ? Hni Hd']; subst. destruct (Z.eqb_spec n num) as [->|]; [|eapply IH; eauto].
    exfalso. apply Hni. apply nth_error_In in Hn. apply (in_map fst) in Hn. exact Hn.
Qed.

Lemma nodup_member (os : list odesc) j ms : NoDup (flat_map (map fst) os) -> nth_error os j = Some ms -> NoDup (map fst ms).
Proof.
  revert j. induction os as [|ms' os IH]; intros [|j] Hd Hn; cbn [nth_error flat_map] in *; try discriminate; apply NoDup_app_inv in Hd.
  - injection Hn as ->. tauto.
  - apply (IH j); tauto.
Qed.

Lemma varint_bytes32 n : 0 <= n < 2 ^ 32 -> Forall is_byte (varint n).
Proof.
  intros H. destruct (varint_varint32 n H) as ((init & last & E & _ & Hi & Hl) & _). rewrite E. apply Forall_app. split.
  - eapply Forall_impl; [|exact Hi]. unfold is_byte. cbn. lia.
  - repeat constructor; lia.
Qed.

Lemma nested_small num p n : 1 <= num < 2 ^ 29 -> Forall is_byte p -> zlen p <= 10 * n -> 10 * n < 2 ^ 32 ->
  Forall is_byte (nested num p) /\ zlen (nested num p) <= 10 * (n + 1).
Proof.
  intros Hn Hb Hp Hl. pose proof (zlen_nonneg p). unfold nested. split.
  - rewrite !Forall_app. split; [apply varint_bytes32; lia|]. split; [apply varint_bytes32; lia|exact Hb].
  - rewrite !zlen_app. pose proof (zlen_varint32 (num * 8 + 2) ltac:(lia)). pose proof (zlen_varint32 (zlen p) ltac:(lia)). lia.
Qed.

Theorem depth_needed t : forall levels, desc_ok t -> (levels < depth t)%nat -> 10 * Z.of_nat levels < 2 ^ 32 ->
  exists bytes, Forall is_byte bytes /\ zlen bytes <= 10 * Z.of_nat levels /\ reaches t levels bytes.
Proof.
  induction t as [sc|st max|fs os Hf Ho] using ety_ind'; intros levels Hd Hl Hz; [cbn in Hl; lia..|].
  destruct levels as [|n].
  - exists []. split; [constructor|]. split; [reflexivity|]. intros S R rel ok s tail Hs -> fuel Hfu. cbn [app] in Hs.
    split; [reflexivity|]. destruct fuel as [|fuel]; [lia|]. cbn [deserialize]. unfold msg_deserialize. cbn [msg_loop].
    destruct (DeserializeTag_nil ok s Hs) as (s1 & -> & Hs1). cbn [bind]. eauto.
  - rewrite Nat2Z.inj_succ in *. destruct (depth_has fs os n Hl) as [(i & num & k & t & Hi & Hk & Hn)|(j & ms & i & num & t & Hj & Hi & Hn)].
    + destruct (desc_field _ _ _ _ _ _ Hd Hi) as (Hdt & Hnum & _). rewrite Forall_forall in Hf.
      destruct (Hf _ (nth_error_In _ _ Hi) n Hdt Hn ltac:(lia)) as (p & Hb & Hp & Hr). cbn [snd] in Hr.
      destruct t as [| |fs' os']; [cbn in Hn; lia..|].
      exists (nested num p). destruct (nested_small num p (Z.of_nat n) Hnum Hb Hp ltac:(lia)) as (Hb' & Hp').
      split; [exact Hb'|]. split; [lia|]. eapply field_reach; eauto. lia.
    + assert (Hlk : lookup ms num = Some t).
      { destruct Hd as (Hnd & _). apply NoDup_app_inv in Hnd. destruct Hnd as (_ & Hnd & _).
        apply (lookup_nodup ms i); [|exact Hi]. eapply nodup_member; eauto. }
      destruct (desc_member _ _ _ _ _ _ Hd Hj Hlk) as (Hdt & Hnum). rewrite Forall_forall in Ho.
      specialize (Ho _ (nth_error_In _ _ Hj)). rewrite Forall_forall in Ho.
      destruct (Ho _ (nth_error_In _ _ Hi) n Hdt Hn ltac:(lia)) as (p & Hb & Hp & Hr). cbn [snd] in Hr.
      destruct t as [| |fs' os']; [cbn in Hn; lia..|].
      exists (nested num p). destruct (nested_small num p (Z.of_nat n) Hnum Hb Hp ltac:(lia)) as (Hb' & Hp').
      split; [exact Hb'|]. split; [lia|]. eapply member_reach; eauto. lia.
Qed.

Theorem depth_needed_fixed fs os levels : let t := EMsg fs os in desc_ok t -> (levels < depth t)%nat -> 10 * Z.of_nat levels < 2 ^ 32 ->
  exists bytes, Forall is_byte bytes /\ zlen bytes <= 10 * Z.of_nat levels /\
  forall fuel, (1 < fuel)%nat ->
    (exists v s, deserialize fuel t rfix (rfix_ops (zlen bytes)) (default_value t) (rfix_of bytes) = Done (NoErrors, v, s))
    /\ deserialize_within levels fuel t rfix (rfix_ops (zlen bytes)) (default_value t) (rfix_of bytes) = Fuel.
Proof.
  intros t Hd Hl Hz. destruct (depth_needed t levels Hd Hl Hz) as (bytes & Hb & Hn & Hr). exists bytes. split; [exact Hb|]. split; [exact Hn|].
  intros fuel Hfu. destruct (Hr rfix (rfix_ops (zlen bytes)) (rfix_rel (zlen bytes)) (rfix_ok _) (rfix_of bytes) []) with (fuel := fuel) as (E1 & v & s & E2 & _); auto.
  - rewrite app_nil_r. apply rfix_of_rel; [lia|exact Hb].
  - eauto.
Qed.
