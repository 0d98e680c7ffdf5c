(** Proofs about the depth of the stack (C76): what serialize() needs for a given object. *)
From Verif Require Import Base Buffers Wire Schema Fields Message Stack Spec SpecStack Contracts BitLemmas Struct SerProofs Tables BufferProofs DecodeProofs StackProofs.
From Coq Require Import ZifyBool ZifyNat ZifyN Lia.
Ltac Zify.zify_post_hook ::= Z.div_mod_to_equations.

(** ** The size calculator never refuses *)

Definition quiet (f : Z -> res (err * Z)) : Prop := forall n e m, 0 <= n < 2 ^ 32 -> f n = Done (e, m) -> e = NoErrors /\ 0 <= m < 2 ^ 32.

Lemma u32_range z : 0 <= u32 z < 2 ^ 32.
Proof. unfold u32, uw. apply Z.mod_pos_bound. reflexivity. Qed.

Lemma varint_loop_quiet k : forall v b n v' b' m, 0 <= n < 2 ^ 32 -> SerializeVarint_loop calc_ops k v b n = Done (v', b', m) -> 0 <= m < 2 ^ 32.
Proof.
  induction k as [|k IH]; intros v b n v' b' m Hn; cbn [SerializeVarint_loop]; destruct (_ && b); try discriminate;
    [intros [= <- <- <-]; exact Hn| |intros [= <- <- <-]; exact Hn].
  cbn [calc_ops w_push bind]. apply IH. apply u32_range.
Qed.

Lemma varint_quiet v : quiet (SerializeVarint calc_ops v).
Proof.
  intros n e m Hn. unfold SerializeVarint. destruct (SerializeVarint_loop calc_ops 10 v true n) as [[[v' b'] s']| |]; cbn [bind calc_ops w_push]; try discriminate.
  intros [= <- <-]. split; [reflexivity|apply u32_range].
Qed.

Lemma fixed_loop_quiet k v : forall i n b m, 0 <= n < 2 ^ 32 -> SerializeFixed_loop calc_ops k v i n = Done (b, m) -> b = true /\ 0 <= m < 2 ^ 32.
Proof.
  induction k as [|k IH]; intros i n b m Hn; cbn [SerializeFixed_loop calc_ops w_push bind]; [intros [= <- <-]; auto|].
  apply IH. apply u32_range.
Qed.

Lemma fixed_quiet w v : quiet (SerializeFixedNoTag calc_ops w v).
Proof.
  intros n e m Hn. unfold SerializeFixedNoTag. destruct (SerializeFixed_loop calc_ops _ v 0 n) as [[b s']| |] eqn:E; cbn [bind]; try discriminate.
  destruct (fixed_loop_quiet _ _ _ _ _ _ Hn E) as (-> & Hs). intros [= <- <-]. auto.
Qed.

Lemma scalar_quiet sc v : quiet (scalar_serialize sc v Z calc_ops).
Proof.
  intros n e m Hn. unfold scalar_serialize. destruct v; try discriminate.
  destruct sc; cbn [scalar_serialize_z]; try now apply varint_quiet.
  all: try now apply fixed_quiet.
  unfold push_bool. cbn [calc_ops w_push bind]. intros [= <- <-]. split; [reflexivity|apply u32_range].
Qed.

Lemma quiet_then f g : quiet f -> quiet g -> quiet (fun n => let* (e, n1) := f n in if is_ok e then g n1 else Done (e, n1)).
Proof.
  intros Hf Hg n e m Hn. destruct (f n) as [[e1 n1]| |] eqn:E; cbn [bind]; try discriminate.
  destruct (Hf _ _ _ Hn E) as (-> & H1). cbn [is_ok]. now apply Hg.
Qed.

Lemma quiet_done : quiet (fun n => Done (NoErrors, n)).
Proof. intros n e m Hn [= <- <-]. auto. Qed.

Lemma size_quiet (ser : serializer) size : quiet (ser Z calc_ops) -> serialized_size ser = Done size ->
  ser Z calc_ops 0 = Done (NoErrors, size) /\ 0 <= size < 2 ^ 32.
Proof.
  intros H. unfold serialized_size. destruct (ser Z calc_ops 0) as [[e n]| |] eqn:E; cbn [bind]; try discriminate.
  destruct (H 0 e n ltac:(lia) E) as (-> & Hn). intros [= <-]. auto.
Qed.

Lemma elem_quiet t (f : value -> serializer) v num opt : desc_ok t -> wt t v -> quiet (f v Z calc_ops) ->
  quiet (elem_serialize_with_id t f v num opt Z calc_ops).
Proof.
  intros Hd Hw Hf n e m Hn. destruct t as [sc|st max|fs os]; cbn [elem_serialize_with_id].
  - unfold scalar_serialize_with_id, with_tag. apply (quiet_then (SerializeVarint calc_ops _)); auto using varint_quiet, scalar_quiet.
  - unfold bytes_serialize_with_id. destruct v as [| |len data| |]; try contradiction. destruct Hw as (Hl & _). cbn [desc_ok] in Hd. unfold capacity_ok in Hd.
    destruct (_ || opt); [|apply quiet_done; exact Hn]. cbn [calc_ops w_get_available_size].
    destruct (Z.leb_spec len (2 ^ 32 - 1)); [|lia]. fold calc_ops.
    destruct (SerializeVarint calc_ops (MakeTag num LENDEL) n) as [[e1 n1]| |] eqn:E1; cbn [bind]; try discriminate.
    destruct (varint_quiet _ _ _ _ Hn E1) as (-> & H1). cbn [is_ok].
    destruct (SerializeVarint calc_ops len n1) as [[e2 n2]| |] eqn:E2; cbn [bind]; try discriminate.
    destruct (varint_quiet _ _ _ _ H1 E2) as (-> & H2). cbn [is_ok andb].
    destruct (0 <? len); [|now apply quiet_done]. unfold bytes_serialize. cbn [calc_ops w_pushn bind].
    intros [= <- <-]. split; [reflexivity|apply u32_range].
  - destruct (serialized_size (f v)) as [size| |] eqn:Es; cbn [bind]; try discriminate.
    destruct (size_quiet _ _ Hf Es) as (_ & Hs).
    destruct (_ || opt); [|now apply quiet_done].
    apply (quiet_then (SerializeVarint calc_ops _)); [apply varint_quiet| |exact Hn].
    apply (quiet_then (SerializeVarint calc_ops _)); [apply varint_quiet|].
    intros n' e' m' Hn'. cbn [calc_ops w_get_available_size]. destruct (Z.leb_spec size (2 ^ 32 - 1)); [|lia]. now apply Hf.
Qed.

Lemma aget_In {A} (l : list A) i x : aget l i = Done x -> In x l.
Proof.
  unfold aget. destruct (0 <=? i); [|discriminate]. destruct (nth_error l _) eqn:En; [|discriminate].
  intros [= <-]. eapply nth_error_In; eauto.
Qed.

Lemma packed_quiet (f : value -> serializer) data k : (forall x, In x data -> quiet (f x Z calc_ops)) ->
  forall i, quiet (rep_serialize_packed f k i data calc_ops).
Proof.
  intros Hf. induction k as [|k IH]; intros i n e m Hn; cbn [rep_serialize_packed]; [now apply quiet_done|].
  unfold rep_get_const. destruct (aget data _) as [x| |] eqn:Ea; cbn [bind]; try discriminate.
  apply (quiet_then (f x Z calc_ops)); auto. apply Hf. eapply aget_In; eauto.
Qed.

Lemma unpacked_quiet (f : value -> serializer) num data k : (forall x, In x data -> quiet (f x Z calc_ops)) ->
  forall i, quiet (rep_serialize_unpacked f num k i data calc_ops).
Proof.
  intros Hf. induction k as [|k IH]; intros i n e m Hn; cbn [rep_serialize_unpacked]; [now apply quiet_done|].
  unfold rep_get_const. destruct (aget data _) as [x| |] eqn:Ea; cbn [bind]; try discriminate. apply aget_In in Ea.
  destruct (serialized_size (f x)) as [size| |]; cbn [bind]; try discriminate.
  destruct (SerializeVarint calc_ops (MakeTag num LENDEL) n) as [[e1 n1]| |] eqn:E1; cbn [bind]; try discriminate.
  destruct (varint_quiet _ _ _ _ Hn E1) as (-> & H1). cbn [is_ok].
  destruct (SerializeVarint calc_ops size n1) as [[e2 n2]| |] eqn:E2; cbn [bind]; try discriminate.
  destruct (varint_quiet _ _ _ _ H1 E2) as (-> & H2). cbn [is_ok andb].
  destruct (0 <? size).
  - destruct (f x Z calc_ops n2) as [[e3 n3]| |] eqn:E3; cbn [bind]; try discriminate.
    destruct (Hf x Ea _ _ _ H2 E3) as (-> & H3). cbn [is_ok]. now apply IH.
  - cbn [bind is_ok]. now apply IH.
Qed.

Lemma rep_quiet t (f : value -> serializer) v num opt : (forall len data x, v = VR len data -> In x data -> quiet (f x Z calc_ops)) ->
  quiet (rep_serialize_with_id t f v num opt Z calc_ops).
Proof.
  intros Hf n e m Hn. unfold rep_serialize_with_id. destruct v as [| | |len data|]; try discriminate.
  specialize (Hf len data). assert (Hx : forall x, In x data -> quiet (f x Z calc_ops)) by (intros; eauto). destruct (is_packed t).
  - match goal with |- context [serialized_size ?g] => set (ser := g) end.
    assert (Hq : quiet (ser Z calc_ops)) by (apply (packed_quiet f data (Z.to_nat len) Hx 0)).
    destruct (serialized_size ser) as [size| |] eqn:Es; cbn [bind]; try discriminate. destruct (size_quiet _ _ Hq Es) as (_ & Hs).
    destruct (_ || opt); [|now apply quiet_done].
    apply (quiet_then (SerializeVarint calc_ops _)); [apply varint_quiet| |exact Hn].
    apply (quiet_then (SerializeVarint calc_ops _)); [apply varint_quiet|].
    intros n' e' m' Hn'. cbn [calc_ops w_get_available_size]. destruct (Z.leb_spec size (2 ^ 32 - 1)); [|lia]. now apply packed_quiet.
  - match goal with |- context [serialized_size ?g] => set (ser := g) end.
    assert (Hq : quiet (ser Z calc_ops)) by (apply (unpacked_quiet f num data (Z.to_nat len) Hx 0)).
    destruct (serialized_size ser) as [size| |] eqn:Es; cbn [bind]; try discriminate. destruct (size_quiet _ _ Hq Es) as (_ & Hs).
    cbn [calc_ops w_get_available_size]. destruct (Z.leb_spec size (2 ^ 32 - 1)); [|lia]. now apply unpacked_quiet.
Qed.

Lemma fields_quiet (g : ety -> value -> serializer) (fs : list fdesc) : Forall (fun f => desc_ok (snd f)) fs ->
  Forall (fun f => forall v, wt (snd f) v -> quiet (g (snd f) v Z calc_ops)) fs -> forall vs, all2 (fun '(_, k, t) => wt_field k (wt t)) fs vs ->
  forall oi pres, quiet (fields_serialize (map (fun '(num, k, t) => (num, k, t, g t)) fs) oi pres vs calc_ops).
Proof.
  induction fs as [|[[num k] t] fs IH]; intros Hd Hg [|v vs] Hw oi pres n e m Hn; cbn [all2] in Hw; try contradiction;
    cbn [map fields_serialize]; [now apply quiet_done|].
  inversion Hd as [|? ? Hd1 Hd2]; subst. inversion Hg as [|? ? Hg1 Hg2]; subst. cbn [snd] in *. destruct Hw as (Hw1 & Hw2).
  apply (quiet_then (field_serialize (num, k, t, g t) oi pres v Z calc_ops)); [|now apply IH|exact Hn].
  clear n e m Hn. intros n e m Hn. cbn [field_serialize]. destruct k; cbn [wt_field] in Hw1.
  - assert (Hq : quiet (elem_serialize_with_id t (g t) v num false Z calc_ops)) by (apply elem_quiet; auto).
    destruct t; [|now apply Hq..]. destruct v; try discriminate. destruct (scalar_differs_from_default _ _); [now apply Hq|now apply quiet_done].
  - destruct (presence_has pres oi) as [[]| |]; cbn [bind]; try discriminate; [|now apply quiet_done]. apply elem_quiet; auto.
  - apply rep_quiet; [|exact Hn]. intros len data x -> Hi. destruct Hw1 as (_ & _ & Ha). apply all_Forall in Ha. rewrite Forall_forall in Ha. auto.
  - now apply quiet_done.
Qed.

Lemma oneofs_quiet (g : ety -> value -> serializer) (os : list odesc) : Forall (Forall (fun m => desc_ok (snd m))) os ->
  Forall (Forall (fun m => forall v, wt (snd m) v -> quiet (g (snd m) v Z calc_ops))) os ->
  forall ovs, all2 (fun ms => wt_oneof (map (fun '(num, t) => (num, wt t)) ms)) os ovs ->
  quiet (oneofs_serialize (map (map (fun '(num, t) => (num, t, g t))) os) ovs calc_ops).
Proof.
  induction os as [|ms os IH]; intros Hd Hg [|[which v] ovs] Hw n e m Hn; cbn [all2] in Hw; try contradiction;
    cbn [map oneofs_serialize]; [now apply quiet_done|].
  inversion Hd as [|? ? Hd1 Hd2]; subst. inversion Hg as [|? ? Hg1 Hg2]; subst. destruct Hw as (Hw1 & Hw2).
  rewrite find_member_map. unfold wt_oneof in Hw1. cbn [fst snd] in Hw1. rewrite lookup_map in Hw1. destruct (lookup ms which) as [t|] eqn:El.
  - apply lookup_In in El. rewrite Forall_forall in Hd1, Hg1. specialize (Hd1 _ El). specialize (Hg1 _ El). cbn [snd] in *.
    apply (quiet_then (elem_serialize_with_id t (g t) v which true Z calc_ops)); [|now apply IH|exact Hn]. apply elem_quiet; auto.
  - cbn [bind is_ok]. now apply IH.
Qed.

Lemma within_quiet t : desc_ok t -> forall levels v, wt t v -> quiet (serialize_within levels t v Z calc_ops).
Proof.
  induction t as [sc|st max|fs os Hf Ho] using ety_ind'; intros Hd levels v Hw n e m Hn; cbn [serialize_within].
  - now apply scalar_quiet.
  - unfold bytes_serialize. destruct v; try discriminate. cbn [calc_ops w_pushn bind]. intros [= <- <-]. split; [reflexivity|apply u32_range].
  - destruct levels as [|l]; [discriminate|]. unfold msg_serialize. destruct v as [| | | |pres vs ovs]; try contradiction.
    destruct Hw as (_ & _ & Hw1 & Hw2).
    assert (Hdf : Forall (fun f => desc_ok (snd f)) fs).
    { rewrite Forall_forall. intros [[num k] t] Hi. apply In_nth_error in Hi. destruct Hi as (i & Hi). now destruct (desc_field _ _ _ _ _ _ Hd Hi). }
    assert (Hdo : Forall (Forall (fun m => desc_ok (snd m))) os).
    { rewrite Forall_forall. intros ms Hi. rewrite Forall_forall. intros [num t] Hm. apply In_nth_error in Hi. destruct Hi as (j & Hj).
      apply In_nth_error in Hm. destruct Hm as (i & Hi).
      assert (Hlk : lookup ms num = Some t).
      { destruct Hd as (Hnd & _). apply NoDup_app_inv in Hnd. destruct Hnd as (_ & Hnd & _).
        apply (lookup_nodup ms i); [|exact Hi]. eapply nodup_member; eauto. }
      now destruct (desc_member _ _ _ _ _ _ Hd Hj Hlk). }
    apply (quiet_then (fields_serialize _ 0 pres vs calc_ops)); [| |exact Hn].
    + apply fields_quiet; auto. rewrite Forall_forall in *. intros f Hi v Hv. apply Hf; auto.
    + apply oneofs_quiet; auto. rewrite Forall_forall in *. intros ms Hi. specialize (Ho _ Hi). specialize (Hdo _ Hi). rewrite Forall_forall in *.
      intros mm Hm v Hv. apply Ho; auto.
Qed.

(** ** Every field and every oneof is visited when the call succeeds *)

Lemma fields_each (g : ety -> value -> serializer) (fs : list fdesc) S (W : wops S) pres : forall i oi vs s s' num k t v,
  fields_serialize (map (fun '(num, k, t) => (num, k, t, g t)) fs) oi pres vs W s = Done (NoErrors, s') ->
  nth_error fs i = Some (num, k, t) -> nth_error vs i = Some v ->
  exists s1 s2, field_serialize (num, k, t, g t) (oi + optix fs i) pres v S W s1 = Done (NoErrors, s2).
Proof.
  induction fs as [|[[num' k'] t'] fs IH]; intros [|i] oi [|v' vs] s s' num k t v E Hf Hv; cbn [nth_error] in *; try discriminate;
    cbn [map fields_serialize] in E;
    destruct (field_serialize (num', k', t', g t') oi pres v' S W s) as [[e s1]| |] eqn:E1; cbn [bind] in E; try discriminate;
    (assert (e = NoErrors) as -> by (destruct e; cbn [is_ok] in E; congruence)); cbn [is_ok] in E.
  - injection Hf as -> -> ->. injection Hv as ->. cbn [optix]. rewrite Z.add_0_r. eauto.
  - destruct (IH i _ vs s1 s' num k t v E Hf Hv) as (s2 & s3 & E2). cbn [optix]. exists s2, s3. rewrite <- E2. f_equal.
    destruct k'; cbn [next_opt succ_opt]; lia.
Qed.

Lemma oneofs_each (g : ety -> value -> serializer) (os : list odesc) S (W : wops S) : forall j ovs s s' ms which v t,
  oneofs_serialize (map (map (fun '(num, t) => (num, t, g t))) os) ovs W s = Done (NoErrors, s') ->
  nth_error os j = Some ms -> nth_error ovs j = Some (which, v) -> lookup ms which = Some t ->
  exists s1 s2, elem_serialize_with_id t (g t) v which true S W s1 = Done (NoErrors, s2).
Proof.
  induction os as [|ms' os IH]; intros [|j] [|[which' v'] ovs] s s' ms which v t E Hm Hv Hl; cbn [nth_error] in *; try discriminate;
    cbn [map oneofs_serialize] in E; rewrite find_member_map in E.
  - injection Hm as ->. injection Hv as -> ->. rewrite Hl in E.
    destruct (elem_serialize_with_id t (g t) v which true S W s) as [[e s1]| |] eqn:E1; cbn [bind] in E; try discriminate.
    assert (e = NoErrors) as -> by (destruct e; cbn [is_ok] in E; congruence). eauto.
  - match type of E with bind ?x _ = _ => destruct x as [[e s1]| |]; cbn [bind] in E; try discriminate end.
    assert (e = NoErrors) as -> by (destruct e; cbn [is_ok] in E; congruence). cbn [is_ok] in E. eauto.
Qed.

(** ** An object with more levels than allowed *)

Definition never (f : serializer) : Prop := forall S (W : wops S) s s', f S W s <> Done (NoErrors, s').

Lemma never_size (f : serializer) size : quiet (f Z calc_ops) -> never f -> serialized_size f <> Done size.
Proof. intros Hq Hn E. destruct (size_quiet _ _ Hq E) as (E1 & _). exact (Hn _ _ _ _ E1). Qed.

Lemma elem_never fs os (f : value -> serializer) v num opt : quiet (f v Z calc_ops) -> never (f v) ->
  never (elem_serialize_with_id (EMsg fs os) f v num opt).
Proof.
  intros Hq Hn S W s s'. cbn [elem_serialize_with_id]. pose proof (fun size => never_size (f v) size Hq Hn) as H.
  destruct (serialized_size (f v)) as [size| |]; cbn [bind]; try discriminate. now destruct (H size).
Qed.

Lemma unpacked_never (f : value -> serializer) num data j x : nth_error data j = Some x -> zlen data < 2 ^ 32 -> quiet (f x Z calc_ops) -> never (f x) ->
  forall k i S (W : wops S) s s', 0 <= i <= Z.of_nat j -> Z.of_nat j < i + Z.of_nat k -> rep_serialize_unpacked f num k i data W s <> Done (NoErrors, s').
Proof.
  intros Hj Hz Hq Hn. assert (Hlt : (j < length data)%nat) by (apply nth_error_Some; congruence).
  induction k as [|k IH]; intros i S W s s' Hi Hk; [lia|]. cbn [rep_serialize_unpacked]. unfold rep_get_const.
  rewrite u32_small, Z.min_l by (unfold is_u32, zlen in *; lia).
  destruct (Z.eq_dec i (Z.of_nat j)) as [->|Hne].
  - rewrite (aget_nat _ _ _ Hj). cbn [bind]. pose proof (fun size => never_size _ size Hq Hn) as H.
    destruct (serialized_size (f x)) as [size| |]; cbn [bind]; try discriminate. now destruct (H size).
  - destruct (aget data i) as [y| |]; cbn [bind]; try discriminate.
    destruct (serialized_size (f y)) as [size| |]; cbn [bind]; try discriminate.
    destruct (SerializeVarint W _ s) as [[e1 s1]| |]; cbn [bind]; try discriminate.
    match goal with |- bind ?r _ <> _ => destruct r as [[e2 s2]| |]; cbn [bind]; try discriminate end.
    destruct e2; cbn [is_ok]; try discriminate. apply IH; lia.
Qed.

Lemma nth_firstn_lt {A} : forall n i (l : list A), (i < n)%nat -> nth_error (firstn n l) i = nth_error l i.
Proof. induction n as [|n IH]; intros [|i] [|x l] H; cbn; try lia; auto. apply IH. lia. Qed.

Lemma rep_never fs os (f : value -> serializer) len data num opt j x : let t := EMsg fs os in
  nth_error (firstn (Z.to_nat len) data) j = Some x -> zlen data < 2 ^ 32 -> quiet (f x Z calc_ops) -> never (f x) ->
  never (rep_serialize_with_id t f (VR len data) num opt).
Proof.
  intros t Hj Hz Hq Hn S W s s'. unfold rep_serialize_with_id. cbn [t is_packed].
  assert (Hlt : (j < Z.to_nat len)%nat).
  { assert (H : nth_error (firstn (Z.to_nat len) data) j <> None) by congruence. apply nth_error_Some in H. rewrite firstn_length in H. lia. }
  rewrite nth_firstn_lt in Hj by exact Hlt.
  destruct (serialized_size _) as [size| |]; cbn [bind]; try discriminate. destruct (_ <=? _); [|discriminate].
  eapply unpacked_never; eauto; lia.
Qed.

Theorem levels_needed t sv n : holds_levels t sv n -> forall levels v, sv = view t v -> desc_ok t -> wt t v -> (levels < n)%nat ->
  never (serialize_within levels t v).
Proof.
  induction 1 as [fs os sv|fs os vs ovs i num t x n Hf Hx Hl IH|fs os vs ovs i num t x n Hf Hx Hl IH
                 |fs os vs ovs i num max t l x n Hf Hx Hi Hl IH|fs os vs ovs j ms num t x n Hm Hx Hlk Hl IH];
    intros levels v Hv Hd Hw Hn S W s s' E; (destruct levels as [|levels]; [discriminate|]); [lia|..];
    (destruct v as [| | | |pres xs os']; [contradiction..|]); rewrite view_tab in Hv; injection Hv as Hvs Hovs;
    cbn [serialize_within] in E; unfold msg_serialize in E;
    destruct (fields_serialize _ 0 pres xs W s) as [[e s1]| |] eqn:E1; cbn [bind] in E; try discriminate;
    (assert (e = NoErrors) as -> by (destruct e; cbn [is_ok] in E; congruence)); cbn [is_ok] in E;
    destruct Hw as (Hwp & _ & Hw1 & Hw2).
  all: (assert (Ht : exists fs' os', t = EMsg fs' os') by (destruct Hl; eauto)); destruct Ht as (fs' & os'' & ->).
  - rewrite Hvs in Hx. destruct (view_fields_nth _ _ _ _ _ _ _ _ _ Hf Hx) as (y & Hy & ->).
    destruct (all2_nth _ _ _ _ _ Hw1 Hf) as (y' & Hy' & Hwy). rewrite Hy in Hy'. injection Hy' as <-. cbn [wt_field] in Hwy.
    destruct (desc_field _ _ _ _ _ _ Hd Hf) as (Hdt & _).
    destruct (fields_each _ _ _ _ _ _ _ _ _ _ _ _ _ _ E1 Hf Hy) as (s2 & s3 & E2). cbn [field_serialize] in E2.
    revert E2. apply elem_never; [now apply within_quiet|]. apply IH; auto. lia.
  - rewrite Hvs in Hx. destruct (view_fields_nth _ _ _ _ _ _ _ _ _ Hf Hx) as (y & Hy & Ey). cbn [view_field] in Ey.
    destruct (present pres (0 + optix fs i)) eqn:Ep; [|discriminate]. injection Ey as ->.
    destruct (all2_nth _ _ _ _ _ Hw1 Hf) as (y' & Hy' & Hwy). rewrite Hy in Hy'. injection Hy' as <-. cbn [wt_field] in Hwy.
    destruct (desc_field _ _ _ _ _ _ Hd Hf) as (Hdt & _).
    destruct (fields_each _ _ _ _ _ _ _ _ _ _ _ _ _ _ E1 Hf Hy) as (s2 & s3 & E2). cbn [field_serialize] in E2.
    rewrite (presence_has_ok pres _ (n_optional fs)) in E2; [|rewrite Z.add_0_l; eapply optix_bound; eauto|exact Hwp].
    rewrite Ep in E2. cbn [bind] in E2. revert E2. apply elem_never; [now apply within_quiet|]. apply IH; auto. lia.
  - rewrite Hvs in Hx. destruct (view_fields_nth _ _ _ _ _ _ _ _ _ Hf Hx) as (y & Hy & Ey). cbn [view_field] in Ey.
    destruct (all2_nth _ _ _ _ _ Hw1 Hf) as (y' & Hy' & Hwy). rewrite Hy in Hy'. injection Hy' as <-. cbn [wt_field] in Hwy.
    destruct y as [| | |len data|]; try contradiction. injection Ey as ->. destruct Hwy as (Hlen & Hz & Ha). apply all_Forall in Ha.
    apply in_map_iff in Hi. destruct Hi as (y & <- & Hi). pose proof Hi as Hi'. apply In_nth_error in Hi'. destruct Hi' as (j & Hj).
    assert (Hwy : wt (EMsg fs' os'') y).
    { rewrite Forall_forall in Ha. apply Ha. rewrite <- (firstn_skipn (Z.to_nat len) data). apply in_or_app. now left. }
    destruct (desc_field _ _ _ _ _ _ Hd Hf) as (Hdt & _ & Hcap). unfold capacity_ok in Hcap.
    destruct (fields_each _ _ _ _ _ _ _ _ _ _ _ _ _ _ E1 Hf Hy) as (s2 & s3 & E2). cbn [field_serialize] in E2.
    revert E2. eapply rep_never; [exact Hj|lia|now apply within_quiet|]. apply IH; auto. lia.
  - rewrite Hovs in Hx. destruct (view_oneofs_nth _ _ _ _ _ Hm Hx) as ([which y] & Hy & Ey). unfold view_oneof in Ey. cbn [fst snd] in Ey.
    rewrite lookup_map in Ey. destruct (lookup ms which) as [t'|] eqn:El; [|discriminate]. injection Ey as -> ->.
    rewrite Hlk in El. injection El as <-.
    destruct (all2_nth _ _ _ _ _ Hw2 Hm) as (y' & Hy' & Hwy). rewrite Hy in Hy'. injection Hy' as <-. unfold wt_oneof in Hwy. cbn [fst snd] in Hwy.
    rewrite lookup_map, Hlk in Hwy. destruct (desc_member _ _ _ _ _ _ Hd Hm Hlk) as (Hdt & _).
    destruct (oneofs_each _ _ _ _ _ _ _ _ _ _ _ _ E Hm Hy Hlk) as (s2 & s3 & E2).
    revert E2. apply elem_never; [now apply within_quiet|]. apply IH; auto. lia.
Qed.

(** ** With a limit the outcome is the same or the limit is reached *)

Definition upto {A} (r1 r2 : res A) : Prop := r1 = Fuel \/ r1 = r2.
Definition sle (s1 s2 : serializer) : Prop := forall S (W : wops S) s, upto (s1 S W s) (s2 S W s).

Lemma upto_refl {A} (r : res A) : upto r r.
Proof. now right. Qed.

Lemma upto_bind {A B} (r1 r2 : res A) (k1 k2 : A -> res B) : upto r1 r2 -> (forall a, upto (k1 a) (k2 a)) -> upto (bind r1 k1) (bind r2 k2).
Proof. intros [-> | ->] H; [now left|]. destruct r2; cbn [bind]; [apply H|now right..]. Qed.

Ltac up := apply upto_bind; [try apply upto_refl|intros; repeat match goal with p : (_ * _)%type |- _ => destruct p end].

Lemma size_sle s1 s2 : sle s1 s2 -> upto (serialized_size s1) (serialized_size s2).
Proof. intros H. unfold serialized_size. up; [apply H|apply upto_refl]. Qed.

Lemma elem_sle t f1 f2 v num opt : (forall v, sle (f1 v) (f2 v)) -> sle (elem_serialize_with_id t f1 v num opt) (elem_serialize_with_id t f2 v num opt).
Proof.
  intros H S W s. unfold elem_serialize_with_id. destruct t; try apply upto_refl. up; [apply size_sle; apply H|].
  destruct (_ || _); [|apply upto_refl]. up. destruct (is_ok e); [|apply upto_refl]. up. destruct (is_ok e0); [|apply upto_refl].
  destruct (_ <=? _); [apply H|apply upto_refl].
Qed.

Lemma packed_sle f1 f2 n : (forall v, sle (f1 v) (f2 v)) -> forall i data S (W : wops S) s,
  upto (rep_serialize_packed f1 n i data W s) (rep_serialize_packed f2 n i data W s).
Proof.
  intros H. induction n as [|n IH]; intros i data S W s; cbn [rep_serialize_packed]; [apply upto_refl|]. up. up; [apply H|].
  destruct (is_ok e); [apply IH|apply upto_refl].
Qed.

Lemma unpacked_sle f1 f2 num n : (forall v, sle (f1 v) (f2 v)) -> forall i data S (W : wops S) s,
  upto (rep_serialize_unpacked f1 num n i data W s) (rep_serialize_unpacked f2 num n i data W s).
Proof.
  intros H. induction n as [|n IH]; intros i data S W s; cbn [rep_serialize_unpacked]; [apply upto_refl|]. up.
  up; [apply size_sle; apply H|]. up.
  apply upto_bind.
  - destruct (is_ok e); [|apply upto_refl]. up. destruct (is_ok e0 && (0 <? a0)); [apply H|apply upto_refl].
  - intros [e1 s1]. destruct (is_ok e1); [apply IH|apply upto_refl].
Qed.

Lemma rep_sle t f1 f2 v num opt : (forall v, sle (f1 v) (f2 v)) -> sle (rep_serialize_with_id t f1 v num opt) (rep_serialize_with_id t f2 v num opt).
Proof.
  intros H S W s. unfold rep_serialize_with_id. destruct v; try apply upto_refl. destruct (is_packed t).
  - apply upto_bind; [apply size_sle; intros S' W' s'; now apply packed_sle|]. intros size.
    destruct (_ || _); [|apply upto_refl]. up. destruct (is_ok e); [|apply upto_refl]. up. destruct (is_ok e0); [|apply upto_refl].
    destruct (_ <=? _); [now apply packed_sle|apply upto_refl].
  - apply upto_bind; [apply size_sle; intros S' W' s'; now apply unpacked_sle|]. intros size.
    destruct (_ <=? _); [now apply unpacked_sle|apply upto_refl].
Qed.

Lemma fields_sle (g1 g2 : ety -> value -> serializer) (fs : list fdesc) S (W : wops S) :
  Forall (fun f => forall v, sle (g1 (snd f) v) (g2 (snd f) v)) fs -> forall oi pres vs s,
  upto (fields_serialize (map (fun '(num, k, t) => (num, k, t, g1 t)) fs) oi pres vs W s)
       (fields_serialize (map (fun '(num, k, t) => (num, k, t, g2 t)) fs) oi pres vs W s).
Proof.
  induction 1 as [|[[num k] t] fs H _ IH]; intros oi pres vs s; cbn [map fields_serialize]; [apply upto_refl|].
  destruct vs as [|v vs]; [apply upto_refl|]. cbn [fst snd] in H. apply upto_bind.
  - cbn [field_serialize]. destruct k.
    + destruct t; [|now apply elem_sle..]. destruct v; apply upto_refl.
    + up. destruct a; [now apply elem_sle|apply upto_refl].
    + now apply rep_sle.
    + apply upto_refl.
  - intros [e s1]. destruct (is_ok e); [apply IH|apply upto_refl].
Qed.

Lemma oneofs_sle (g1 g2 : ety -> value -> serializer) (os : list odesc) S (W : wops S) :
  Forall (Forall (fun m => forall v, sle (g1 (snd m) v) (g2 (snd m) v))) os -> forall vs s,
  upto (oneofs_serialize (map (map (fun '(num, t) => (num, t, g1 t))) os) vs W s)
       (oneofs_serialize (map (map (fun '(num, t) => (num, t, g2 t))) os) vs W s).
Proof.
  induction 1 as [|ms os H _ IH]; intros vs s; cbn [map oneofs_serialize]; [apply upto_refl|].
  destruct vs as [|[which v] vs]; [apply upto_refl|]. rewrite !find_member_map. apply upto_bind.
  - destruct (lookup ms which) as [t|] eqn:El; [|apply upto_refl]. apply lookup_In in El. rewrite Forall_forall in H. specialize (H _ El). now apply elem_sle.
  - intros [e s1]. destruct (is_ok e); [apply IH|apply upto_refl].
Qed.

Lemma within_sle t : forall levels v, sle (serialize_within levels t v) (serialize t v).
Proof.
  induction t as [sc|st max|fs os Hf Ho] using ety_ind'; intros levels v S W s; [apply upto_refl..|].
  destruct levels as [|l]; [now left|]. cbn [serialize_within serialize]. unfold msg_serialize.
  destruct v as [| | | |pres vs ovs]; try apply upto_refl. apply upto_bind.
  - apply fields_sle. rewrite Forall_forall in *. intros f Hi v. now apply Hf.
  - intros [e s1]. destruct (is_ok e); [|apply upto_refl]. apply oneofs_sle.
    rewrite Forall_forall in *. intros ms Hi. specialize (Ho _ Hi). rewrite Forall_forall in *. intros m Hm v. now apply Ho.
Qed.

Theorem serialize_needed t v n levels : desc_ok t -> wt t v -> holds_levels t (view t v) n -> (levels < n)%nat ->
  forall S (W : wops S) s s', serialize t v S W s = Done (NoErrors, s') -> serialize_within levels t v S W s = Fuel.
Proof.
  intros Hd Hw Hh Hn S W s s' E. destruct (within_sle t levels v S W s) as [H|H]; [exact H|].
  rewrite E in H. exfalso. exact (levels_needed t _ n Hh levels v eq_refl Hd Hw Hn S W s s' H).
Qed.
