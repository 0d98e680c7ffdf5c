(** The metered serialize() is serialize() with a counter, and the counter ends at [work] (C72). *)
From Verif Require Import Base Buffers Wire Schema Fields Message Spec Contracts BitLemmas WriteProofs
  ReadProofs ScalarProofs BufferProofs Struct SerProofs SerProps SpecWork Metered.
From Coq Require Import ZifyBool ZifyNat ZifyN.
Ltac Zify.zify_post_hook ::= Z.div_mod_to_equations.

(** Same outcome; at most [n] calls, exactly [n] when nothing was refused. *)
Definition magree {S} (W : wops S) (n k : Z) (r1 : res (err * (S * Z))) (r2 : res (err * S)) : Prop :=
  match r1, r2 with
  | Done (e1, (s1, k1)), Done (e2, s2) => e1 = e2 /\ s1 = s2 /\ k <= k1 <= k + n /\ (sticky W -> e1 = NoErrors -> k1 = k + n)
  | UB, UB => True
  | Fuel, Fuel => True
  | _, _ => False
  end.

Definition mser_ok (t : ety) : Prop := forall v, wt t v -> desc_ok t -> zlen (enc t (view t v)) < 2 ^ 32 ->
  forall (S : Type) (W : wops S) s k,
  magree W (work t (view t v)) k (metered_serialize t v S W (s, k)) (serialize t v S W s).

Section M.
Context {S : Type} (W : wops S).

Lemma magree_done k s : magree W 0 k (Done (NoErrors, (s, k))) (Done (NoErrors, s)).
Proof. cbn [magree]. repeat split; auto; lia. Qed.
Lemma magree_full n k k1 s : k <= k1 <= k + n -> magree W n k (Done (BufferFull, (s, k1))) (Done (BufferFull, s)).
Proof. cbn [magree]. repeat split; auto; try lia. discriminate. Qed.

Lemma magree_bind n1 n2 k r1 r2 (f1 : S * Z -> res (err * (S * Z))) (f2 : S -> res (err * S)) : 0 <= n2 ->
  magree W n1 k r1 r2 -> (forall s k', k <= k' <= k + n1 -> magree W n2 k' (f1 (s, k')) (f2 s)) ->
  magree W (n1 + n2) k (let* (e, s') := r1 in if is_ok e then f1 s' else Done (e, s'))
    (let* (e, s') := r2 in if is_ok e then f2 s' else Done (e, s')).
Proof.
  intros H0 H Hf. destruct r1 as [[e1 [s1 k1]]| |], r2 as [[e2 s2]| |]; cbn [magree bind] in *; try contradiction; auto.
  destruct H as (-> & -> & Hk & He). destruct (is_ok e2) eqn:E.
  - specialize (Hf s2 k1 Hk). unfold magree in Hf.
    destruct (f1 (s2, k1)) as [[e3 [s3 k3]]| |], (f2 s2) as [[e4 s4]| |]; try contradiction; auto.
    destruct Hf as (-> & -> & Hk2 & He2). repeat split; auto; try lia. intros Hs Hn. destruct e2; try discriminate.
    specialize (He Hs eq_refl). specialize (He2 Hs Hn). lia.
  - repeat split; auto; try lia. intros _ ->. discriminate.
Qed.

Lemma magree_at n k k0 r1 r2 : 0 <= n -> magree W (n - (k - k0)) k r1 r2 -> k0 <= k -> magree W n k0 r1 r2.
Proof.
  intros H0 H Hk. unfold magree in *. destruct r1 as [[e1 [s1 k1]]| |], r2 as [[e2 s2]| |]; try contradiction; auto.
  destruct H as (-> & -> & H1 & H2). split; [reflexivity|]. split; [reflexivity|]. split; [lia|]. intros Hs Hn. specialize (H2 Hs Hn). lia.
Qed.

Lemma zlen_groups_pos n v : 1 <= zlen (varint_groups (Datatypes.S n) v).
Proof. cbn [varint_groups]. destruct (v <? 128); [cbn; lia|]; rewrite zlen_cons; pose proof (zlen_nonneg (varint_groups n (v / 128))); lia. Qed.

Lemma varint_loop_counts n : forall v s k, 0 <= v < 128 ^ (Z.of_nat n + 1) ->
  match SerializeVarint_loop (counted_writer W) (Datatypes.S n) v true (s, k), SerializeVarint_loop W (Datatypes.S n) v true s with
  | Done (v1, f1, (s1, k1)), Done (v2, f2, s2) => v1 = v2 /\ s1 = s2 /\ k <= k1 /\ k1 - k + 1 <= zlen (varint_groups (Datatypes.S n) v)
      /\ (k1 - k + 1 = zlen (varint_groups (Datatypes.S n) v) \/ exists s0 b, w_push W s0 b = Done (false, s1))
  | UB, UB => True
  | Fuel, Fuel => True
  | _, _ => False
  end.
Proof.
  induction n as [|n IH]; intros v s k Hv.
  - change (128 ^ (Z.of_nat 0 + 1)) with 128 in Hv.
    cbn [SerializeVarint_loop varint_groups]. change VARINT_MSB_BYTE with 128. destruct (Z.leb_spec 128 v); [lia|]. cbn [andb].
    destruct (Z.ltb_spec v 128); [|lia]. change (zlen [v]) with 1. repeat split; auto; lia.
  - remember (Datatypes.S n) as m. cbn [SerializeVarint_loop varint_groups]. change VARINT_MSB_BYTE with 128.
    destruct (Z.leb_spec 128 v), (Z.ltb_spec v 128); try lia; cbn [andb].
    2: { change (zlen [v]) with 1. repeat split; auto; lia. }
    cbn [counted_writer w_push fst snd]. destruct (w_push W s _) as [[ok s1]| |] eqn:Ep; cbn [bind]; auto.
    rewrite Z.shiftr_div_pow2 by (vm_compute; discriminate). change (2 ^ VARINT_SHIFT_N_BITS) with 128.
    rewrite zlen_cons. destruct ok.
    + assert (Hv' : 0 <= v / 128 < 128 ^ (Z.of_nat n + 1)).
      { split; [apply Z.div_pos; lia|]. apply Z.div_lt_upper_bound; [lia|]. rewrite <- (Z.pow_succ_r 128) by lia.
        replace (Z.succ (Z.of_nat n + 1)) with (Z.of_nat m + 1) by lia. lia. }
      specialize (IH (v / 128) s1 (k + 1) Hv'). 
      destruct (SerializeVarint_loop (counted_writer W) m (v / 128) true (s1, k + 1)) as [[[v1 f1] [t1 k1]]| |],
               (SerializeVarint_loop W m (v / 128) true s1) as [[[v2 f2] t2]| |]; try contradiction; auto.
      destruct IH as (-> & -> & H1 & H2 & H3). repeat split; auto; try lia. destruct H3 as [H3|H3]; [left; lia|right; exact H3].
    + subst m. cbn [SerializeVarint_loop]. rewrite !andb_false_r. pose proof (zlen_groups_pos n (v / 128)).
      repeat split; auto; try lia. right. eauto.
Qed.

Lemma varint_counts v s k : 0 <= v < 2 ^ 64 -> magree W (zlen (varint v)) k (SerializeVarint (counted_writer W) v (s, k)) (SerializeVarint W v s).
Proof.
  intros Hv. unfold SerializeVarint, varint. pose proof (varint_loop_counts 9 v s k) as H.
  specialize (H ltac:(change (128 ^ (Z.of_nat 9 + 1)) with (2 ^ 70); lia)).
  destruct (SerializeVarint_loop (counted_writer W) 10 v true (s, k)) as [[[v1 f1] [t1 k1]]| |],
           (SerializeVarint_loop W 10 v true s) as [[[v2 f2] t2]| |]; cbn [bind]; try contradiction; auto; try exact I.
  destruct H as (-> & -> & H1 & H2 & H3). cbn [counted_writer w_push fst snd].
  destruct (w_push W t2 (u8 v2)) as [[ok s2]| |] eqn:Ep; cbn [bind magree]; auto. repeat split; try lia.
  intros Hs He. destruct ok; [|discriminate]. destruct H3 as [H3|(s0 & b & Hb)]; [lia|]. pose proof (Hs _ _ _ _ _ _ Hb Ep). discriminate.
Qed.

Lemma tag_counts num w s k : 1 <= num < 2 ^ 29 ->
  magree W (zlen (tag num w)) k (SerializeVarint (counted_writer W) (MakeTag num w) (s, k)) (SerializeVarint W (MakeTag num w) s).
Proof. intros Hn. rewrite MakeTag_spec by lia. apply varint_counts. pose proof (wt_code_range w). lia. Qed.

Lemma fixed_loop_counts n : forall v i s k,
  match SerializeFixed_loop (counted_writer W) n v i (s, k), SerializeFixed_loop W n v i s with
  | Done (ok1, (s1, k1)), Done (ok2, s2) => ok1 = ok2 /\ s1 = s2 /\ k <= k1 <= k + Z.of_nat n /\ (ok1 = true -> k1 = k + Z.of_nat n)
  | UB, UB => True
  | Fuel, Fuel => True
  | _, _ => False
  end.
Proof.
  induction n as [|n IH]; intros v i s k; cbn [SerializeFixed_loop].
  - repeat split; auto; lia.
  - cbn [counted_writer w_push fst snd]. destruct (w_push W s _) as [[[|] s1]| |]; cbn [bind]; auto.
    + specialize (IH v (i + 8) s1 (k + 1)).
      destruct (SerializeFixed_loop (counted_writer W) n v (i + 8) (s1, k + 1)) as [[ok1 [t1 k1]]| |], (SerializeFixed_loop W n v (i + 8) s1) as [[ok2 t2]| |];
        try contradiction; auto. destruct IH as (-> & -> & H1 & H2). repeat split; auto; try lia.
    + repeat split; auto; try lia; try discriminate.
Qed.

Lemma fixed_counts w v s k : magree W (Z.of_nat (Z.to_nat (w / 8))) k (SerializeFixedNoTag (counted_writer W) w v (s, k)) (SerializeFixedNoTag W w v s).
Proof.
  unfold SerializeFixedNoTag. pose proof (fixed_loop_counts (Z.to_nat (w / 8)) v 0 s k) as H.
  destruct (SerializeFixed_loop (counted_writer W) _ v 0 (s, k)) as [[ok1 [t1 k1]]| |], (SerializeFixed_loop W _ v 0 s) as [[ok2 t2]| |];
    cbn [bind magree]; try contradiction; auto. destruct H as (-> & -> & H1 & H2). repeat split; auto; try lia.
  intros _ He. destruct ok2; [auto|discriminate].
Qed.

Lemma push_bool_counts z s k : magree W 1 k (push_bool (counted_writer W) z (s, k)) (push_bool W z s).
Proof.
  unfold push_bool. cbn [counted_writer w_push fst snd]. destruct (w_push W s _) as [[ok s1]| |]; cbn [bind magree]; auto. repeat split; lia.
Qed.

Lemma scalar_counts sc z s k : scalar_range sc z ->
  magree W (zlen (scalar_enc sc z)) k (scalar_serialize_z sc z (counted_writer W) (s, k)) (scalar_serialize_z sc z W s).
Proof.
  intros Hz. destruct sc; cbn [scalar_serialize_z scalar_enc scalar_range] in *;
    unfold SerialzieSFixedNoTag, SerialzieFloatNoTag, SerialzieDoubleNoTag, u32, u64, uw.
  1, 2, 8: apply varint_counts; lia.
  1, 2: apply varint_counts; lia.
  1, 2: rewrite ZigZagEncode_spec by (cbn; lia); apply varint_counts;
        match goal with |- 0 <= zigzag _ < _ => unfold zigzag end; destruct (Z.leb_spec 0 z); lia.
  2, 3, 4, 5, 6, 7: unfold zlen; rewrite le_length; apply fixed_counts.
  replace (zlen (varint z)) with 1 by (destruct Hz as [->| ->]; reflexivity). apply push_bool_counts.
Qed.

Lemma bytes_counts len data s k : magree W 1 k (bytes_serialize (VB len data) _ (counted_writer W) (s, k)) (bytes_serialize (VB len data) _ W s).
Proof.
  unfold bytes_serialize. cbn [counted_writer w_pushn fst snd]. destruct (w_pushn W s data len) as [[ok s1]| |]; cbn [bind magree]; auto. repeat split; lia.
Qed.

Lemma if_magree (b : bool) n k r1 r2 q1 q2 : magree W n k r1 r2 -> magree W n k q1 q2 -> magree W n k (if b then r1 else q1) (if b then r2 else q2).
Proof. destruct b; auto. Qed.
End M.

(** ** Sizes *)
Lemma calc_sticky : sticky calc_ops.
Proof. intros s b s' b' ok s'' H. discriminate H. Qed.

Lemma calc_run (ser : serializer) bs tight : zlen bs < 2 ^ 32 -> wrote calc_rel [] None bs tight (ser Z calc_ops 0) -> ser Z calc_ops 0 = Done (NoErrors, zlen bs).
Proof.
  intros Hl (e & s' & E & [(-> & (H & _) & _)|(_ & n & _ & _ & [=] & _)]). rewrite E, H. cbn [app]. rewrite u32_small; [reflexivity|].
  pose proof (zlen_nonneg bs). lia.
Qed.

Lemma metered_size_ok (mser : mserializer) (ser : serializer) n sz : ser Z calc_ops 0 = Done (NoErrors, sz) ->
  (forall k, magree calc_ops n k (mser Z calc_ops (0, k)) (ser Z calc_ops 0)) ->
  forall S (s : S) k, metered_size mser (s, k) = Done (sz, (s, k + n)).
Proof.
  intros E H S s k. unfold metered_size. cbn [snd fst]. specialize (H k). rewrite E in H.
  destruct (mser Z calc_ops (0, k)) as [[e [z k']]| |]; cbn [magree] in H; try contradiction. destruct H as (-> & -> & _ & Hk).
  cbn [bind]. rewrite (Hk calc_sticky eq_refl). reflexivity.
Qed.

Lemma serialize_calc t v : wt t v -> desc_ok t -> zlen (enc t (view t v)) < 2 ^ 32 ->
  serialize t v Z calc_ops 0 = Done (NoErrors, zlen (enc t (view t v))).
Proof. intros Hw Hd Hl. eapply calc_run; [exact Hl|]. eapply (serialize_wrote t); eauto using calc_ok, calc_init. Qed.

(** ** Counts are not negative *)
Lemma header_nonneg num p : 0 <= header num p.
Proof. unfold header. pose proof (zlen_nonneg (tag num LENDEL)). pose proof (zlen_nonneg (varint (zlen p))). lia. Qed.
Lemma again_nonneg p n : 0 <= n -> 0 <= again p n.
Proof. destruct p; cbn; lia. Qed.
Lemma work_elem_nonneg num t p w : 0 <= w -> 0 <= work_elem num t p w.
Proof.
  intros H. pose proof (header_nonneg num p). pose proof (again_nonneg p 1). pose proof (zlen_nonneg p).
  destruct t as [s| |]; cbn [work_elem]; try lia. pose proof (zlen_nonneg (tag num (scalar_wiretype s))). lia.
Qed.
Lemma zsum_nonneg l : Forall (fun x => 0 <= x) l -> 0 <= zsum l.
Proof. induction 1; cbn [zsum fold_right] in *; [lia|]. unfold zsum in *. lia. Qed.
Lemma work_item_nonneg num e w x : 0 <= w x -> 0 <= work_item num e w x.
Proof. intros H. unfold work_item. pose proof (header_nonneg num (e x)). pose proof (again_nonneg (e x) (w x) H). lia. Qed.
Lemma work_field_nonneg num k t e w v : (forall x, 0 <= w x) -> 0 <= work_field num k t e w v.
Proof.
  intros H. destruct k; cbn [work_field]; try lia.
  - pose proof (fun p x => work_elem_nonneg num t p (w x) (H x)). destruct t.
    + destruct v; try (match goal with |- context [if ?c then _ else _] => destruct c end; auto; lia); match goal with |- context [e ?x] => destruct (e x) end; auto.
    + apply again_nonneg. auto.
    + destruct (e v); auto.
  - destruct v; try lia. apply work_elem_nonneg. auto.
  - destruct v; try lia. destruct t.
    + pose proof (header_nonneg num (flat_map e elems)). pose proof (zlen_nonneg (flat_map e elems)).
      pose proof (again_nonneg (flat_map e elems) (header num (flat_map e elems) + zlen (flat_map e elems))). cbv zeta. lia.
    + assert (0 <= zsum (map (work_item num e w) elems)); [|lia]. apply zsum_nonneg. apply Forall_map. apply Forall_forall. intros. apply work_item_nonneg. auto.
    + assert (0 <= zsum (map (work_item num e w) elems)); [|lia]. apply zsum_nonneg. apply Forall_map. apply Forall_forall. intros. apply work_item_nonneg. auto.
Qed.
Lemma work_fields_nonneg fs : Forall (fun f : fdesc => forall x, 0 <= work (snd f) x) fs -> forall vs,
  0 <= work_fields (map (fun '(num, k, t) => (num, k, t, enc t, work t)) fs) vs.
Proof.
  induction 1 as [|[[num k] t] fs Hx Hf IH]; intros vs; cbn [map work_fields]; [lia|]. destruct vs as [|v vs]; [lia|].
  pose proof (work_field_nonneg num k t (enc t) (work t) v Hx). specialize (IH vs). lia.
Qed.
Lemma work_oneofs_nonneg os : Forall (Forall (fun m : Z * ety => forall x, 0 <= work (snd m) x)) os -> forall vs,
  0 <= work_oneofs (map (map (fun '(num, t) => (num, (t, enc t, work t)))) os) vs.
Proof.
  induction 1 as [|ms os Hm Ho IH]; intros vs; cbn [map work_oneofs]; [lia|]. destruct vs as [|[w v] vs]; [lia|]. specialize (IH vs).
  assert (0 <= work_oneof (map (fun '(num, t) => (num, (t, enc t, work t))) ms) (w, v)); [|lia].
  unfold work_oneof. cbn [fst snd]. rewrite (lookup_map (fun t => (t, enc t, work t))). destruct (lookup ms w) as [t|] eqn:E; [|lia].
  apply lookup_In in E. eapply Forall_forall in Hm; [|exact E]. destruct v; try lia. apply work_elem_nonneg. apply Hm.
Qed.
Lemma work_nonneg t : forall x, 0 <= work t x.
Proof.
  induction t as [sc|st max|fs os Hf Ho] using ety_ind'; intros x; cbn [work]; [apply zlen_nonneg|lia|].
  destruct x; try lia. pose proof (work_fields_nonneg fs Hf fields). pose proof (work_oneofs_nonneg os Ho oneofs). lia.
Qed.

(** ** Elements *)
Lemma mser_ok_scalar sc : mser_ok (EScalar sc).
Proof.
  intros v Hw _ _ S W s k. destruct v; cbn [wt] in Hw; try tauto. cbn [metered_serialize serialize view work enc]. unfold scalar_serialize.
  apply scalar_counts. exact Hw.
Qed.
Lemma mser_ok_bytes st max : mser_ok (EBytes st max).
Proof.
  intros v Hw _ _ S W s k. destruct v; cbn [wt] in Hw; try tauto. cbn [metered_serialize serialize work]. apply bytes_counts.
Qed.

(** Calls for one element, [optional]: written even when empty. *)
Definition elem_work (optional : bool) (num : Z) (t : ety) (p : list Z) (w : Z) : Z :=
  match t with
  | EScalar _ => work_elem num t p w
  | EBytes _ _ => if optional then work_elem num t p w else again p (work_elem num t p w)
  | EMsg _ _ => if optional then work_elem num t p w else match p with [] => w | _ => work_elem num t p w end
  end.

Lemma ltb_zlen {A} (p : list A) : (0 <? zlen p) = match p with [] => false | _ => true end.
Proof. destruct p; [reflexivity|]. rewrite zlen_cons. pose proof (zlen_nonneg p). lia. Qed.

Section Elem.
Context {S : Type} (W : wops S).

(** A message in a message: the calls of the size computation come first, whatever happens later. *)
Lemma elem_msg_counts fs os v num optional s k : let t := EMsg fs os in
  mser_ok t -> wt t v -> desc_ok t -> 1 <= num < 2 ^ 29 -> zlen (enc t (view t v)) < 2 ^ 32 ->
  magree W (elem_work optional num t (enc t (view t v)) (work t (view t v)) - work t (view t v)) (k + work t (view t v))
    (melem_serialize_with_id t (metered_serialize t) v num optional S W (s, k))
    (elem_serialize_with_id t (serialize t) v num optional S W s).
Proof.
  intros t IH Hw Hd Hn Hp. unfold elem_serialize_with_id, melem_serialize_with_id, t. fold t.
    set (p := enc t (view t v)) in *. set (w := work t (view t v)).
    assert (H0 : 0 <= w) by apply work_nonneg. pose proof (zlen_nonneg p).
    rewrite (metered_size_ok (metered_serialize t v) (serialize t v) w (zlen p)); [|apply serialize_calc; auto|intros k0; apply IH; auto].
    rewrite serialized_size_enc by auto. fold p. cbn [bind]. rewrite ltb_zlen.
    destruct (match p with [] => false | _ => true end || optional) eqn:Ec.
    + assert (Ew : elem_work optional num t p w = w + (zlen (tag num LENDEL) + (zlen (varint (zlen p)) + w))).
      { unfold elem_work, t, work_elem, header. destruct optional; [lia|]. destruct p; [discriminate|lia]. }
      rewrite Ew. pose proof (zlen_nonneg (varint (zlen p))). pose proof (zlen_nonneg (tag num LENDEL)).
      match goal with |- magree _ ?n _ _ _ => replace n with (zlen (tag num LENDEL) + (zlen (varint (zlen p)) + w)) by lia end.
      apply magree_bind; [lia|apply tag_counts; exact Hn|]. intros s1 k1 _.
      apply magree_bind; [lia|apply varint_counts; lia|]. intros s2 k2 _. cbn [fst].
      apply if_magree; [apply IH; auto|apply magree_full; lia].
    + destruct optional; [rewrite orb_true_r in Ec; discriminate|]. destruct p eqn:E; [|discriminate]. unfold elem_work, t.
      replace (w - w) with 0 by lia. apply magree_done.
Qed.

Lemma elem_counts t v num optional s k : mser_ok t -> wt t v -> desc_ok t -> 1 <= num < 2 ^ 29 ->
  zlen (enc t (view t v)) < 2 ^ 32 ->
  magree W (elem_work optional num t (enc t (view t v)) (work t (view t v))) k
    (melem_serialize_with_id t (metered_serialize t) v num optional S W (s, k))
    (elem_serialize_with_id t (serialize t) v num optional S W s).
Proof.
  intros IH Hw Hd Hn Hp. unfold elem_serialize_with_id, melem_serialize_with_id. destruct t as [sc|st max|fs os].
  - cbn [elem_work work_elem]. destruct v; cbn [wt] in Hw; try tauto. unfold scalar_serialize_with_id, with_tag.
    apply magree_bind; [apply zlen_nonneg|apply tag_counts; exact Hn|]. intros s' k' _. unfold scalar_serialize. apply scalar_counts. exact Hw.
  - cbn [desc_ok] in Hd. destruct (bytes_enc_len _ _ _ Hw) as (len & data & Ev & El & Hlen).
    set (p := enc (EBytes st max) (view (EBytes st max) v)) in *. unfold bytes_serialize_with_id. subst v. unfold capacity_ok in Hd.
    pose proof (header_nonneg num p). pose proof (again_nonneg p 1).
    rewrite <- El. rewrite !ltb_zlen. cbn [elem_work work_elem].
    destruct (match p with [] => false | _ => true end || optional) eqn:Ec.
    + assert (Ew : (if optional then header num p + again p 1 else again p (header num p + again p 1)) = header num p + again p 1).
      { destruct optional; [reflexivity|]. destruct p; [discriminate|reflexivity]. }
      rewrite Ew. change (w_get_available_size (counted_writer W) (s, k)) with (w_get_available_size W s).
      apply if_magree; [|apply magree_full; lia].
      assert (Hbind : forall T (r : res (err * T)) (kl kb : T -> res (err * T)) b,
           (let* (e, s1) := r in
            let* (e, s2) := if is_ok e then kl s1 else Done (e, s1) in
            if is_ok e && b then kb s2 else Done (e, s2))
           = (let* (e, s1) := r in
              if is_ok e then
                let* (e, s2) := kl s1 in
                if is_ok e then (if b : bool then kb s2 else Done (NoErrors, s2)) else Done (e, s2)
              else Done (e, s1))).
      { intros T r kl kb b. destruct r as [[e s1]| |]; cbn [bind]; auto. destruct e; cbn [bind is_ok andb]; auto.
        destruct (kl s1) as [[e s2]| |]; cbn [bind]; auto. destruct e; cbn [is_ok andb]; auto. }
      rewrite (Hbind _ _ (fun s1 => SerializeVarint W (zlen p) s1) (fun s2 => bytes_serialize (VB (zlen p) data) S W s2)).
      rewrite (Hbind _ _ (fun s1 => SerializeVarint (counted_writer W) (zlen p) s1) (fun s2 => bytes_serialize (VB (zlen p) data) _ (counted_writer W) s2)).
      unfold header. rewrite <- Z.add_assoc. pose proof (zlen_nonneg (varint (zlen p))). pose proof (zlen_nonneg p).
      apply magree_bind; [lia|apply tag_counts; exact Hn|]. intros s1 k1 _.
      apply magree_bind; [lia|apply varint_counts; lia|]. intros s2 k2 _.
      destruct p; cbn [again]; [apply magree_done|apply bytes_counts].
    + destruct optional; [rewrite orb_true_r in Ec; discriminate|]. destruct p; [|discriminate]. cbn [again]. apply magree_done.
  - set (t := EMsg fs os) in *. pose proof (work_nonneg t (view t v)).
    apply magree_at with (k := k + work t (view t v)); [|match goal with |- magree _ ?n _ _ _ => replace n with
      (elem_work optional num t (enc t (view t v)) (work t (view t v)) - work t (view t v)) by lia end; apply elem_msg_counts; auto|lia].
    pose proof (header_nonneg num (enc t (view t v))). set (w := work t (view t v)) in *. set (p := enc t (view t v)) in *. clearbody w p. unfold elem_work, t, work_elem.
    destruct optional; [lia|]. destruct p; lia.
Qed.

(** ** Repeated fields *)
Lemma packed_counts sc data : zlen data < 2 ^ 31 -> forall n i s k,
  (i + n <= length data)%nat -> all (wt (EScalar sc)) data ->
  magree W (zlen (flat_map (enc (EScalar sc)) (map (view (EScalar sc)) (firstn n (skipn i data))))) k
    (mrep_serialize_packed (metered_serialize (EScalar sc)) n (Z.of_nat i) data W (s, k))
    (rep_serialize_packed (serialize (EScalar sc)) n (Z.of_nat i) data W s).
Proof.
  intros Hl. induction n as [|n IH]; intros i s k Hi Hw.
  - cbn [firstn map flat_map rep_serialize_packed mrep_serialize_packed]. apply magree_done.
  - destruct (firstn_skipn_cons n i data) as (x & Hx & ->); [lia|].
    cbn [map flat_map rep_serialize_packed mrep_serialize_packed]. rewrite (rep_get_const_nth _ _ _ Hx Hl). cbn [bind]. rewrite zlen_app.
    pose proof (proj1 (all_Forall _ _) Hw) as Hf. eapply Forall_forall in Hf; [|eapply nth_error_In; exact Hx].
    apply magree_bind; [apply zlen_nonneg| |].
    + destruct x; cbn [wt] in Hf; try tauto. cbn [metered_serialize serialize view enc]. unfold scalar_serialize. apply scalar_counts. exact Hf.
    + intros s' k' _. replace (Z.of_nat i + 1) with (Z.of_nat (Datatypes.S i)) by lia. apply IH; auto. lia.
Qed.

Lemma unpacked_counts t num data : zlen data < 2 ^ 31 -> mser_ok t -> desc_ok t ->
  1 <= num < 2 ^ 29 -> forall n i s k,
  (i + n <= length data)%nat -> all (wt t) data ->
  Forall (fun x => zlen (enc t x) < 2 ^ 32) (map (view t) (firstn n (skipn i data))) ->
  magree W (zsum (map (work_item num (enc t) (work t)) (map (view t) (firstn n (skipn i data))))) k
    (mrep_serialize_unpacked (metered_serialize t) num n (Z.of_nat i) data W (s, k))
    (rep_serialize_unpacked (serialize t) num n (Z.of_nat i) data W s).
Proof.
  intros Hl IHt Hd Hnum. induction n as [|n IH]; intros i s k Hi Hw Hlen.
  - cbn [firstn map zsum fold_right rep_serialize_unpacked mrep_serialize_unpacked]. apply magree_done.
  - destruct (firstn_skipn_cons n i data) as (x & Hx & E); [lia|]. rewrite E in *.
    cbn [map rep_serialize_unpacked mrep_serialize_unpacked] in *. rewrite (rep_get_const_nth _ _ _ Hx Hl). cbn [bind].
    inversion Hlen as [|? ? Hp Hrest]; subst. set (p := enc t (view t x)) in *. set (w := work t (view t x)).
    assert (Hwx : wt t x). { apply all_Forall in Hw. eapply Forall_forall in Hw; [exact Hw|]. eapply nth_error_In; eauto. }
    assert (H0 : 0 <= w) by apply work_nonneg. pose proof (zlen_nonneg p). pose proof (again_nonneg p w H0).
    pose proof (zlen_nonneg (varint (zlen p))). pose proof (zlen_nonneg (tag num LENDEL)).
    rewrite (metered_size_ok (metered_serialize t x) (serialize t x) w (zlen p)); [|apply serialize_calc; auto|intros k0; apply IHt; auto].
    rewrite serialized_size_enc by auto. fold p. cbn [bind]. rewrite ltb_zlen.
    assert (Hbind : forall T (r : res (err * T)) (kl kb kk : T -> res (err * T)) b,
           (let* (e, s1) := r in
            let* (e, s2) := if is_ok e then let* (e, s2) := kl s1 in if is_ok e && b then kb s2 else Done (e, s2) else Done (e, s1) in
            if is_ok e then kk s2 else Done (e, s2))
           = (let* (e, s3) := (let* (e, s1) := r in
              if is_ok e then
                let* (e, s2) := kl s1 in
                if is_ok e then (if b : bool then kb s2 else Done (NoErrors, s2)) else Done (e, s2)
              else Done (e, s1)) in
              if is_ok e then kk s3 else Done (e, s3))).
    { intros T r kl kb kk b. destruct r as [[e s1]| |]; cbn [bind]; auto. destruct e; cbn [bind is_ok andb]; auto.
      destruct (kl s1) as [[e s2]| |]; cbn [bind]; auto. destruct e; cbn [is_ok andb bind]; auto. }
    rewrite (Hbind _ _ (fun s1 => SerializeVarint W (zlen p) s1) (fun s2 => serialize t x S W s2)).
    rewrite (Hbind _ _ (fun s1 => SerializeVarint (counted_writer W) (zlen p) s1) (fun s2 => metered_serialize t x S W s2)). clear Hbind.
    set (rest := map (view t) (firstn n (skipn (Datatypes.S i) data))) in *.
    assert (Hz : 0 <= zsum (map (work_item num (enc t) (work t)) rest)).
    { apply zsum_nonneg. apply Forall_map. apply Forall_forall. intros y _. apply work_item_nonneg. apply work_nonneg. }
    cbn [zsum fold_right]. fold (zsum (map (work_item num (enc t) (work t)) rest)). set (z := zsum _) in *.
    unfold work_item at 1. fold p w. unfold header.
    apply magree_at with (k := k + w); try lia.
    match goal with |- magree _ ?m _ _ _ => replace m with ((zlen (tag num LENDEL) + (zlen (varint (zlen p)) + again p w)) + z) by lia end.
    apply magree_bind; [exact Hz| |].
    + apply magree_bind; [lia|apply tag_counts; exact Hnum|]. intros s1 k1 _.
      apply magree_bind; [lia|apply varint_counts; lia|]. intros s2 k2 _.
      destruct p eqn:Ep; cbn [again]; [apply magree_done|]. apply IHt; auto. fold p. rewrite Ep. exact Hp.
    + intros s' k' _. replace (Z.of_nat i + 1) with (Z.of_nat (Datatypes.S i)) by lia. apply IH; auto. lia.
Qed.
End Elem.

Lemma flat_map_bound {A} (f : A -> list Z) l b : zlen (flat_map f l) < b -> Forall (fun x => zlen (f x) < b) l.
Proof.
  induction l as [|x l IH]; intros H; constructor; cbn [flat_map] in H; rewrite zlen_app in H;
    pose proof (zlen_nonneg (f x)); pose proof (zlen_nonneg (flat_map f l)); [lia|apply IH; lia].
Qed.

Lemma enc_elem_bound num t p : zlen p <= zlen (enc_elem num t p).
Proof.
  destruct t as [s| |]; cbn [enc_elem]; rewrite zlen_app; [pose proof (zlen_nonneg (tag num (scalar_wiretype s))); lia|..];
    pose proof (zlen_nonneg (tag num LENDEL)); pose proof (zlen_delimited p); lia.
Qed.

Section Field.
Context {S : Type} (W : wops S).

(** A list of messages or strings: the calls of the size computation come first. *)
Lemma rep_list_counts t max len data num s k : let l := map (view t) (firstn (Z.to_nat len) data) in
  let z := zsum (map (work_item num (enc t) (work t)) l) in
  is_packed t = false -> mser_ok t -> wt_field (KRep max) (wt t) (VR len data) -> desc_ok t -> capacity_ok max -> 1 <= num < 2 ^ 29 ->
  zlen (flat_map (fun x => enc_elem num t (enc t x)) l) < 2 ^ 32 ->
  magree W z (k + z) (mrep_serialize_with_id t (metered_serialize t) (VR len data) num false S W (s, k))
    (rep_serialize_with_id t (serialize t) (VR len data) num false S W s).
Proof.
  intros l z Hp IH (Hlen & Hdata & Hall) Hd Hc Hn Hl. unfold capacity_ok in Hc. unfold rep_serialize_with_id, mrep_serialize_with_id. rewrite Hp.
    assert (Hf : Forall (fun x => zlen (enc t x) < 2 ^ 32) l).
    { apply flat_map_bound in Hl. eapply Forall_impl; [|exact Hl]. intros x Hx. cbv beta in Hx. pose proof (enc_elem_bound num t (enc t x)). lia. }
    set (p := flat_map (fun x => enc_elem num t (enc t x)) l) in *.
    assert (Hz : 0 <= z). { apply zsum_nonneg. apply Forall_map. apply Forall_forall. intros y _. apply work_item_nonneg. apply work_nonneg. }
    assert (Hrun : rep_serialize_unpacked (serialize t) num (Z.to_nat len) 0 data calc_ops 0 = Done (NoErrors, zlen p)).
    { eapply (calc_run (fun S W s => rep_serialize_unpacked (serialize t) num (Z.to_nat len) 0 data W s) p); [exact Hl|].
      apply (rep_unpacked_wrote calc_ok t num data) with (i := O); auto using calc_init, serialize_wrote; unfold zlen in *; lia. }
    assert (Hpk : forall T (V : wops T) s k, magree V z k (mrep_serialize_unpacked (metered_serialize t) num (Z.to_nat len) 0 data V (s, k))
        (rep_serialize_unpacked (serialize t) num (Z.to_nat len) 0 data V s)).
    { intros T V s0 k0. apply (unpacked_counts V t num data) with (i := O); auto; unfold zlen in *; lia. }
    rewrite (metered_size_ok (fun S W s => mrep_serialize_unpacked (metered_serialize t) num (Z.to_nat len) 0 data W s)
      (fun S W s => rep_serialize_unpacked (serialize t) num (Z.to_nat len) 0 data W s) z (zlen p) Hrun) by (intros k0; apply Hpk).
    unfold serialized_size. rewrite Hrun. cbn [bind fst].
    apply if_magree; [apply Hpk|apply magree_full; lia].
Qed.

Lemma rep_counts t max v num s k : mser_ok t -> wt_field (KRep max) (wt t) v -> desc_ok t -> capacity_ok max -> 1 <= num < 2 ^ 29 ->
  zlen (enc_field num (KRep max) t (enc t) (view_field (KRep max) (view t) 0 [] v)) < 2 ^ 32 ->
  magree W (work_field num (KRep max) t (enc t) (work t) (view_field (KRep max) (view t) 0 [] v)) k
    (mrep_serialize_with_id t (metered_serialize t) v num false S W (s, k))
    (rep_serialize_with_id t (serialize t) v num false S W s).
Proof.
  intros IH Hw Hd Hc Hn Hl. unfold capacity_ok in Hc.
  destruct v as [| | |len data|]; cbn [wt_field] in Hw; try tauto. destruct Hw as (Hlen & Hdata & Hall).
  cbn [view_field] in *. unfold rep_serialize_with_id, mrep_serialize_with_id.
  set (l := map (view t) (firstn (Z.to_nat len) data)) in *.
  destruct (is_packed t) eqn:Hp.
  - destruct t as [sc| |]; try discriminate. cbn [enc_field work_field] in *. cbv zeta.
    set (p := flat_map (enc (EScalar sc)) l) in *. pose proof (zlen_nonneg p).
    assert (Hpl : zlen p < 2 ^ 32).
    { destruct l as [|x l'] eqn:E; [cbn; lia|]. unfold p in *. rewrite zlen_app in Hl.
      match type of Hl with _ + zlen (delimited ?q) < _ => pose proof (zlen_delimited q) end. pose proof (zlen_nonneg (tag num LENDEL)). lia. }
    assert (Hrun : rep_serialize_packed (serialize (EScalar sc)) (Z.to_nat len) 0 data calc_ops 0 = Done (NoErrors, zlen p)).
    { apply (calc_run (fun S W s => rep_serialize_packed (serialize (EScalar sc)) (Z.to_nat len) 0 data W s) p True Hpl).
      apply (rep_packed_wrote calc_ok sc data) with (i := O); auto using calc_init; unfold zlen in *; lia. }
    rewrite (metered_size_ok (fun S W s => mrep_serialize_packed (metered_serialize (EScalar sc)) (Z.to_nat len) 0 data W s)
      (fun S W s => rep_serialize_packed (serialize (EScalar sc)) (Z.to_nat len) 0 data W s) (zlen p) (zlen p) Hrun).
    2: { intros k0. apply (packed_counts calc_ops sc data) with (i := O); auto; unfold zlen in *; lia. }
    unfold serialized_size. rewrite Hrun. cbn [bind]. rewrite !orb_false_r, ltb_zlen.
    assert (Hpk : forall s k, magree W (zlen p) k (mrep_serialize_packed (metered_serialize (EScalar sc)) (Z.to_nat len) 0 data W (s, k))
        (rep_serialize_packed (serialize (EScalar sc)) (Z.to_nat len) 0 data W s)).
    { intros s0 k0. apply (packed_counts W sc data) with (i := O); auto; unfold zlen in *; lia. }
    pose proof (zlen_nonneg (varint (zlen p))). pose proof (zlen_nonneg (tag num LENDEL)).
    clear Hrun. clearbody p. destruct p as [|b p'] eqn:Ep.
    + cbn [again]. change (zlen []) with 0. rewrite !Z.add_0_r. apply magree_done.
    + rewrite <- Ep in *. assert (Ea : again p (header num p + zlen p) = zlen (tag num LENDEL) + (zlen (varint (zlen p)) + zlen p)).
      { rewrite Ep at 1. unfold again, header. lia. }
      rewrite Ea. apply magree_at with (k := k + zlen p); try lia.
      match goal with |- magree _ ?n _ _ _ => replace n with (zlen (tag num LENDEL) + (zlen (varint (zlen p)) + zlen p)) by lia end.
      apply magree_bind; [lia|apply tag_counts; exact Hn|]. intros s1 k1 _.
      apply magree_bind; [lia|apply varint_counts; lia|]. intros s2 k2 _. cbn [fst].
      apply if_magree; [apply Hpk|apply magree_full; lia].
  - assert (Ee : enc_field num (KRep max) t (enc t) (SvR l) = flat_map (fun x => enc_elem num t (enc t x)) l)
      by (destruct t; [discriminate|reflexivity..]).
    assert (Ew : work_field num (KRep max) t (enc t) (work t) (SvR l) = 2 * zsum (map (work_item num (enc t) (work t)) l))
      by (destruct t; [discriminate|reflexivity..]).
    rewrite Ee in *. rewrite Ew. clear Ee Ew. set (z := zsum (map (work_item num (enc t) (work t)) l)).
    assert (Hz : 0 <= z). { apply zsum_nonneg. apply Forall_map. apply Forall_forall. intros y _. apply work_item_nonneg. apply work_nonneg. }
    apply magree_at with (k := k + z); try lia. replace (2 * z - (k + z - k)) with z by lia.
    pose proof (rep_list_counts t max len data num s k Hp IH (conj Hlen (conj Hdata Hall)) Hd Hc Hn Hl) as H. fold l in H. fold z in H.
    unfold rep_serialize_with_id, mrep_serialize_with_id in H. rewrite Hp in H. exact H.
Qed.

Lemma field_counts num k t v oi pres n s c :
  mser_ok t -> wt_field k (wt t) v -> desc_ok t ->
  match k with KRep max => capacity_ok max | _ => True end -> 1 <= num < 2 ^ 29 ->
  zlen pres = presence_size n -> 0 <= oi -> oi + succ_opt k 0 <= n ->
  zlen (enc_field num k t (enc t) (view_field k (view t) oi pres v)) < 2 ^ 32 ->
  magree W (work_field num k t (enc t) (work t) (view_field k (view t) oi pres v)) c
    (mfield_serialize (num, k, t, metered_serialize t) oi pres v S W (s, c))
    (field_serialize (num, k, t, serialize t) oi pres v S W s).
Proof.
  intros IH Hw Hd Hc Hn Hp Hoi Hoi' Hl. unfold field_serialize, mfield_serialize. destruct k as [| |max|].
  - cbn [wt_field] in Hw. cbn [view_field] in *. destruct t as [sc|st max|fs os].
    + destruct v; cbn [wt] in Hw; try tauto. rewrite differs_is_zero. cbn [view enc_field work_field] in *.
      destruct (is_zero sc z); cbn [negb]; [apply magree_done|].
      apply (elem_counts W (EScalar sc) (VS z) num false); auto. pose proof (enc_elem_bound num (EScalar sc) (enc (EScalar sc) (SvZ z))). cbn [view]. lia.
    + set (t := EBytes st max) in *.
      assert (Hb : zlen (enc t (view t v)) < 2 ^ 32).
      { assert (Ee : enc_field num KPlain t (enc t) (view t v) = match enc t (view t v) with [] => [] | p => enc_elem num t p end) by (destruct (view t v); reflexivity).
        rewrite Ee in Hl. destruct (enc t (view t v)) as [|b l] eqn:E; [cbn; lia|]. pose proof (enc_elem_bound num t (b :: l)). lia. }
      replace (work_field num KPlain t (enc t) (work t) (view t v)) with (elem_work false num t (enc t (view t v)) (work t (view t v)))
        by (destruct (view t v); reflexivity).
      replace (match v with VS _ => _ | _ => _ end) with (melem_serialize_with_id t (metered_serialize t) v num false S W (s, c)) by (destruct v; reflexivity).
      replace (match v with VS _ => _ | _ => _ end) with (elem_serialize_with_id t (serialize t) v num false S W s) by (destruct v; reflexivity).
      apply elem_counts; auto.
    + set (t := EMsg fs os) in *.
      assert (Hb : zlen (enc t (view t v)) < 2 ^ 32).
      { assert (Ee : enc_field num KPlain t (enc t) (view t v) = match enc t (view t v) with [] => [] | p => enc_elem num t p end) by (destruct (view t v); reflexivity).
        rewrite Ee in Hl. destruct (enc t (view t v)) as [|b l] eqn:E; [cbn; lia|]. pose proof (enc_elem_bound num t (b :: l)). lia. }
      replace (work_field num KPlain t (enc t) (work t) (view t v)) with (elem_work false num t (enc t (view t v)) (work t (view t v)))
        by (destruct (view t v); reflexivity).
      replace (match v with VS _ => _ | _ => _ end) with (melem_serialize_with_id t (metered_serialize t) v num false S W (s, c)) by (destruct v; reflexivity).
      replace (match v with VS _ => _ | _ => _ end) with (elem_serialize_with_id t (serialize t) v num false S W s) by (destruct v; reflexivity).
      apply elem_counts; auto.
  - cbn [succ_opt] in Hoi'. rewrite (presence_has_ok pres oi n) by lia. cbn [bind view_field] in *.
    destruct (present pres oi); [|cbn [work_field]; apply magree_done].
    cbn [enc_field wt_field work_field] in *.
    replace (work_elem num t (enc t (view t v)) (work t (view t v))) with (elem_work true num t (enc t (view t v)) (work t (view t v))) by (destruct t; reflexivity).
    apply elem_counts; auto. pose proof (enc_elem_bound num t (enc t (view t v))). lia.
  - apply rep_counts; auto.
  - cbn [view_field work_field]. apply magree_done.
Qed.

Lemma fields_counts pres n : zlen pres = presence_size n -> forall fs vs oi s c,
  Forall (fun f : fdesc => mser_ok (snd f)) fs ->
  all (fun '(_, k, t) => desc_ok t /\ match k with KRep max => capacity_ok max | _ => True end) fs ->
  Forall (fun n => 1 <= n < 2 ^ 29) (map (fun '(num, _, _) => num) fs) ->
  all2 (fun '(_, k, t) => wt_field k (wt t)) fs vs ->
  0 <= oi -> oi + n_optional fs <= n ->
  zlen (enc_fields (map (fun '(num, k, t) => (num, k, t, enc t)) fs)
          (view_fields (map (fun '(_, k, t) => (k, view t)) fs) oi pres vs)) < 2 ^ 32 ->
  magree W (work_fields (map (fun '(num, k, t) => (num, k, t, enc t, work t)) fs)
          (view_fields (map (fun '(_, k, t) => (k, view t)) fs) oi pres vs)) c
    (mfields_serialize (map (fun '(num, k, t) => (num, k, t, metered_serialize t)) fs) oi pres vs W (s, c))
    (fields_serialize (map (fun '(num, k, t) => (num, k, t, serialize t)) fs) oi pres vs W s).
Proof.
  intros Hp. induction fs as [|[[num k] t] fs IHfs]; intros vs oi s c HI Hd Hn Hw Hoi Hoi' Hl;
    destruct vs as [|v vs]; cbn [all2] in Hw; try tauto.
  - cbn [map view_fields work_fields fields_serialize mfields_serialize]. apply magree_done.
  - cbn [map view_fields work_fields enc_fields fields_serialize mfields_serialize] in *.
    inversion HI; subst. inversion Hn; subst. cbn [all] in Hd. destruct Hd as ((Hd1 & Hd2) & Hd3).
    rewrite n_optional_cons in Hoi'. pose proof (n_optional_nonneg fs). pose proof (succ_opt_range k).
    rewrite zlen_app in Hl.
    match type of Hl with zlen ?a + zlen ?b < _ => pose proof (zlen_nonneg a); pose proof (zlen_nonneg b) end.
    apply magree_bind.
    + apply work_fields_nonneg. apply Forall_forall. intros f _. apply work_nonneg.
    + eapply field_counts with (n := n); eauto; try tauto; lia.
    + intros s' c' _. pose proof (succ_opt_add k oi). rewrite (next_opt_succ k oi). apply IHfs; auto; try tauto; try lia.
Qed.

Lemma oneofs_counts : forall os ovs s c,
  Forall (Forall (fun m : Z * ety => mser_ok (snd m))) os ->
  all (all (fun '(_, t) => desc_ok t)) os ->
  Forall (fun n => 1 <= n < 2 ^ 29) (flat_map (map fst) os) ->
  all2 (fun ms => wt_oneof (map (fun '(num, t) => (num, wt t)) ms)) os ovs ->
  zlen (enc_oneofs (map (map (fun '(num, t) => (num, (t, enc t)))) os)
          (view_oneofs (map (map (fun '(num, t) => (num, view t))) os) ovs)) < 2 ^ 32 ->
  magree W (work_oneofs (map (map (fun '(num, t) => (num, (t, enc t, work t)))) os)
          (view_oneofs (map (map (fun '(num, t) => (num, view t))) os) ovs)) c
    (moneofs_serialize (map (map (fun '(num, t) => (num, t, metered_serialize t))) os) ovs W (s, c))
    (oneofs_serialize (map (map (fun '(num, t) => (num, t, serialize t))) os) ovs W s).
Proof.
  induction os as [|ms os IHos]; intros ovs s c HI Hd Hn Hw Hl;
    destruct ovs as [|[which v] ovs]; cbn [all2] in Hw; try tauto.
  - cbn [map view_oneofs work_oneofs oneofs_serialize moneofs_serialize]. apply magree_done.
  - cbn [map view_oneofs enc_oneofs work_oneofs oneofs_serialize moneofs_serialize flat_map] in *.
    inversion HI; subst. apply Forall_app in Hn. destruct Hn as (Hn1 & Hn2). cbn [all] in Hd.
    rewrite zlen_app in Hl.
    match type of Hl with zlen ?a + zlen ?b < _ => pose proof (zlen_nonneg a); pose proof (zlen_nonneg b) end.
    apply magree_bind.
    + apply work_oneofs_nonneg. apply Forall_forall. intros m _. apply Forall_forall. intros x _. apply work_nonneg.
    + rewrite !find_member_map. destruct Hw as (Hw & _). unfold wt_oneof in Hw. cbn [fst snd] in Hw.
      unfold view_oneof in *. cbn [fst snd] in *. rewrite (lookup_map view) in Hl |- *. rewrite (lookup_map wt) in Hw.
      destruct (lookup ms which) as [t|] eqn:El.
      * unfold enc_oneof in Hl. unfold work_oneof. cbn [fst snd] in *. rewrite (lookup_map (fun t => (t, enc t))), El in Hl.
        rewrite (lookup_map (fun t => (t, enc t, work t))), El.
        pose proof (lookup_In _ _ _ El) as Hin.
        replace (work_elem which t (enc t (view t v)) (work t (view t v))) with (elem_work true which t (enc t (view t v)) (work t (view t v))) by (destruct t; reflexivity).
        apply elem_counts; auto.
        -- eapply Forall_forall in H1; [|exact Hin]. exact H1.
        -- destruct Hd as (Hd & _). apply all_Forall in Hd. eapply Forall_forall in Hd; [|exact Hin]. exact Hd.
        -- eapply Forall_forall in Hn1; [|apply in_map_iff; exists (which, t); eauto]. exact Hn1.
        -- pose proof (enc_elem_bound which t (enc t (view t v))). lia.
      * unfold work_oneof. cbn [fst snd]. rewrite (lookup_map (fun t => (t, enc t, work t))). destruct (lookup ms 0) as [?|]; apply magree_done.
    + intros s' c' _. apply IHos; auto; try tauto; try lia.
Qed.
End Field.

Lemma mser_ok_msg fs os : Forall (fun f : fdesc => mser_ok (snd f)) fs ->
  Forall (Forall (fun m : Z * ety => mser_ok (snd m))) os -> mser_ok (EMsg fs os).
Proof.
  intros Hf Ho v Hw Hd Hl S W s k. destruct v as [| | | |pres vs ovs]; cbn [wt] in Hw; try tauto.
  destruct Hw as (Hp & Hu & Hw1 & Hw2). cbn [desc_ok] in Hd. destruct Hd as (_ & Hn & Hd1 & Hd2).
  apply all_Forall in Hn. unfold field_numbers in Hn. apply Forall_app in Hn. destruct Hn as (Hn1 & Hn2).
  cbn [serialize metered_serialize]. unfold msg_serialize. cbn [view enc work] in *. rewrite zlen_app in Hl.
  match type of Hl with zlen ?a + zlen ?b < _ => pose proof (zlen_nonneg a); pose proof (zlen_nonneg b) end.
  apply magree_bind.
  - apply work_oneofs_nonneg. apply Forall_forall. intros m _. apply Forall_forall. intros x _. apply work_nonneg.
  - apply (fields_counts W pres (n_optional fs)); auto; try lia.
  - intros s' k' _. apply oneofs_counts; auto; lia.
Qed.

Theorem metered_ok t : mser_ok t.
Proof. induction t using ety_ind'; auto using mser_ok_scalar, mser_ok_bytes, mser_ok_msg. Qed.
