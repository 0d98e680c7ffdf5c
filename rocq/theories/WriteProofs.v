(** Proofs about the writing functions of WireFormatter. *)
From Verif Require Import Base Buffers Wire Schema Spec Contracts BitLemmas.
From Coq Require Import ZifyBool ZifyNat ZifyN.
Ltac Zify.zify_post_hook ::= Z.div_mod_to_equations.

(** Outcome of writing [bs]: everything written, or a proper prefix and BUFFER_FULL. *)
Definition wrote {S} (rel : S -> list Z -> option Z -> Prop) (c : list Z) (room : option Z)
    (bs : list Z) (tight : Prop) (r : res (err * S)) : Prop :=
  exists e s', r = Done (e, s') /\
    ((e = NoErrors /\ rel s' (c ++ bs) (option_map (fun n => n - zlen bs) room)
      /\ forall n, room = Some n -> zlen bs <= n)
     \/ (e = BufferFull /\ exists n pre suf, room = Some n /\ bs = pre ++ suf /\ suf <> []
         /\ rel s' (c ++ pre) (Some (n - zlen pre)) /\ zlen pre <= n <= zlen bs
         /\ (tight -> n < zlen bs))).

Section W.
Context {S : Type} {W : wops S} {rel : S -> list Z -> option Z -> Prop} {exact : Prop}
        (ok : writer_ok W rel exact).

Lemma push_cases s c room b : rel s c room -> is_byte b ->
  (exists s', w_push W s b = Done (true, s')
     /\ rel s' (c ++ [b]) (option_map (fun n => n - 1) room) /\ (forall n, room = Some n -> 0 < n))
  \/ (exists s', w_push W s b = Done (false, s') /\ room = Some 0 /\ rel s' c (Some 0)).
Proof.
  intros H Hb. destruct room as [n|].
  - pose proof (wo_room _ _ _ ok _ _ _ H). destruct (Z.eq_dec n 0) as [->|].
    + right. destruct (wo_push_full _ _ _ ok _ _ _ H Hb) as (s' & E & H'). eauto.
    + left. destruct (wo_push _ _ _ ok _ _ _ _ H ltac:(lia) Hb) as (s' & E & H').
      exists s'. split; [exact E|]. split; [exact H'|]. intros m [= ->]. lia.
  - left. destruct (wo_push_inf _ _ _ ok _ _ _ H Hb) as (s' & E & H').
    exists s'. split; [exact E|]. split; [exact H'|]. discriminate.
Qed.

Lemma wrote_nil s c room tight : rel s c room -> wrote rel c room [] tight (Done (NoErrors, s)).
Proof.
  intros H. exists NoErrors, s. split; [reflexivity|]. left. split; [reflexivity|].
  rewrite app_nil_r. split.
  - destruct room; cbn [option_map]; [|exact H]. rewrite zlen_nil, Z.sub_0_r. exact H.
  - intros n ->. rewrite zlen_nil. eapply wo_room; eauto.
Qed.

Lemma wrote_weaken c room bs (tight tight' : Prop) r :
  (tight' -> tight) -> wrote rel c room bs tight r -> wrote rel c room bs tight' r.
Proof.
  intros Ht (e & s' & E & [H|H]); exists e, s'; split; auto.
  right. destruct H as (-> & n & pre & suf & H). split; auto. exists n, pre, suf. tauto.
Qed.

Lemma wrote_bind c room bs1 bs2 tight (r : res (err * S)) (k : S -> res (err * S)) :
  wrote rel c room bs1 tight r ->
  (forall s', rel s' (c ++ bs1) (option_map (fun n => n - zlen bs1) room) ->
     wrote rel (c ++ bs1) (option_map (fun n => n - zlen bs1) room) bs2 tight (k s')) ->
  wrote rel c room (bs1 ++ bs2) tight
    (let* (e, s') := r in if is_ok e then k s' else Done (e, s')).
Proof.
  intros (e & s' & -> & [(-> & H & Hn) | (-> & n & pre & suf & -> & -> & Hs & H & Hp & Ht)]) Hk;
    cbn [bind is_ok].
  - destruct (Hk _ H) as (e2 & s2 & -> & [(-> & H2 & Hn2) | (-> & n & pre & suf & Hr & -> & Hs & H2 & Hp & Ht)]).
    + exists NoErrors, s2. split; [reflexivity|]. left. split; [reflexivity|]. split.
      * rewrite <- app_assoc in H2. destruct room; cbn in *; [|exact H2].
        rewrite zlen_app. replace (z - (zlen bs1 + zlen bs2)) with (z - zlen bs1 - zlen bs2) by lia.
        exact H2.
      * intros n ->. specialize (Hn _ eq_refl). specialize (Hn2 _ eq_refl). rewrite zlen_app. lia.
    + exists BufferFull, s2. split; [reflexivity|]. right. split; [reflexivity|].
      destruct room as [n0|]; cbn in Hr; [|discriminate]. injection Hr as Hr.
      specialize (Hn _ eq_refl).
      exists n0, (bs1 ++ pre), suf. rewrite <- app_assoc in H2. rewrite !zlen_app in *.
      split; [reflexivity|]. split; [now rewrite app_assoc|]. split; [exact Hs|]. split.
      * replace (n0 - (zlen bs1 + zlen pre)) with (n - zlen pre) by lia. exact H2.
      * split; [lia|]. intros t. specialize (Ht t). lia.
  - exists BufferFull, s'. split; [reflexivity|]. right. split; [reflexivity|].
    exists n, pre, (suf ++ bs2). rewrite !zlen_app in *. pose proof (zlen_nonneg bs2).
    split; [reflexivity|]. split; [now rewrite app_assoc|].
    split; [destruct suf; [congruence|discriminate]|]. split; [exact H|]. split; [lia|].
    intros t. specialize (Ht t). lia.
Qed.

(** A failing path that writes nothing more although [bs2] should follow. *)
Lemma wrote_full c room n bs tight s :
  room = Some n -> rel s c room -> bs <> [] -> n < zlen bs ->
  wrote rel c room bs tight (Done (BufferFull, s)).
Proof.
  intros -> H Hb Hn. exists BufferFull, s. split; [reflexivity|]. right. split; [reflexivity|].
  exists n, [], bs. rewrite app_nil_r, zlen_nil, Z.sub_0_r. pose proof (wo_room _ _ _ ok _ _ _ H).
  repeat split; auto; lia.
Qed.

Lemma wrote_push s c room b tight :
  rel s c room -> is_byte b ->
  wrote rel c room [b] tight
    (let* (k, s') := w_push W s b in Done (if k then NoErrors else BufferFull, s')).
Proof.
  intros H Hb. destruct (push_cases s c room b H Hb) as [(s' & -> & H' & Hn)|(s' & -> & -> & H')];
    cbn [bind].
  - exists NoErrors, s'. split; [reflexivity|]. left. split; [reflexivity|]. split; [exact H'|].
    intros n ->. specialize (Hn _ eq_refl). cbn. lia.
  - apply wrote_full with 0; auto; [discriminate|cbn; lia].
Qed.

Lemma wrote_cons c room b bs tight (r : res (err * S)) :
  (forall n, room = Some n -> 0 < n) ->
  wrote rel (c ++ [b]) (option_map (fun n => n - 1) room) bs tight r ->
  wrote rel c room (b :: bs) tight r.
Proof.
  intros Hn' (e & s2 & -> & [(-> & H2 & Hn2) | (-> & m & pre & suf & Hm & -> & Hs & H2 & Hp & Ht)]).
  - exists NoErrors, s2. split; [reflexivity|]. left. split; [reflexivity|]. split.
    + rewrite <- app_assoc in H2. destruct room; cbn [option_map] in *; auto. rewrite zlen_cons.
      match goal with |- rel _ _ (Some ?a) => match type of H2 with rel _ _ (Some ?b) =>
        replace a with b by lia end end. exact H2.
    + intros m ->. specialize (Hn' _ eq_refl). specialize (Hn2 _ eq_refl).
      rewrite zlen_cons. lia.
  - exists BufferFull, s2. split; [reflexivity|]. right. split; [reflexivity|].
    destruct room as [m0|]; cbn in Hm; [|discriminate]. injection Hm as Hm.
    specialize (Hn' _ eq_refl).
    exists m0, (b :: pre), suf. rewrite <- app_assoc in H2.
    rewrite !zlen_cons. rewrite !zlen_app in *. split; [reflexivity|]. split; [reflexivity|].
    split; [exact Hs|]. split.
    + replace (m0 - (1 + zlen pre)) with (m - zlen pre) by lia. exact H2.
    + split; [lia|]. intros t. specialize (Ht t). lia.
Qed.

Lemma varint_groups_wrote k : forall n v s c room,
  (k > 0)%nat -> (k <= n + 1)%nat -> 0 <= v < 2 ^ (7 * Z.of_nat k) -> rel s c room ->
  wrote rel c room (varint_groups k v) True
    (let* (value', _, s') := SerializeVarint_loop W n v true s in
     let* (ok, s'') := w_push W s' (u8 value') in
     Done (if ok then NoErrors else BufferFull, s'')).
Proof.
  induction k as [|k IH]; intros n v s c room Hk Hn Hv Hr; [lia|].
  cbn [varint_groups].
  destruct (Z.ltb_spec v 128) as [Hlt|Hge].
  - destruct n; cbn [SerializeVarint_loop]; unfold VARINT_MSB_BYTE;
      destruct (Z.leb_spec 128 v); try lia; cbn [andb bind];
      rewrite u8_small by lia; apply wrote_push; auto; unfold is_byte; lia.
  - destruct k as [|k].
    { change (2 ^ (7 * Z.of_nat 1)) with 128 in Hv. lia. }
    destruct n as [|n]; [lia|].
    cbn [SerializeVarint_loop]. unfold VARINT_MSB_BYTE, VARINT_SHIFT_N_BITS.
    destruct (Z.leb_spec 128 v); [|lia]. cbn [andb].
    rewrite u8_lor_128 by lia. rewrite Z.shiftr_div_pow2 by lia. change (2 ^ 7) with 128.
    assert (Hb : is_byte (128 + v mod 128)) by (unfold is_byte; lia).
    assert (Hv' : 0 <= v / 128 < 2 ^ (7 * Z.of_nat (Datatypes.S k))).
    { split; [lia|]. apply Z.div_lt_upper_bound; [lia|].
      replace (7 * Z.of_nat (Datatypes.S (Datatypes.S k))) with (7 + 7 * Z.of_nat (Datatypes.S k)) in Hv by lia.
      rewrite Z.pow_add_r in Hv by lia. lia. }
    destruct (push_cases s c room (128 + v mod 128) Hr Hb) as [(s' & -> & H' & Hn')|(s' & -> & -> & H')];
      cbn [bind].
    + apply wrote_cons; [exact Hn'|]. apply IH; auto; lia.
    + (* refused inside the loop: the last push is refused too *)
      assert (E : SerializeVarint_loop W n (v / 128) false s' = Done (v / 128, false, s')).
      { destruct n; cbn [SerializeVarint_loop]; rewrite andb_false_r; reflexivity. }
      rewrite E. cbn [bind].
      destruct (wo_push_full _ _ _ ok _ _ (u8 (v / 128)) H') as (s2 & -> & H2).
      { unfold is_byte, u8. change (2 ^ 8) with 256. lia. }
      cbn [bind]. apply wrote_full with 0; auto; [discriminate|].
      rewrite zlen_cons. pose proof (zlen_nonneg (varint_groups (Datatypes.S k) (v / 128))). lia.
Qed.

Lemma SerializeVarint_wrote v s c room : 0 <= v < 2 ^ 64 -> rel s c room ->
  wrote rel c room (varint v) True (SerializeVarint W v s).
Proof.
  intros Hv H. unfold SerializeVarint, varint.
  apply varint_groups_wrote; auto; try lia.
Qed.

Lemma SerializeFixed_wrote k : forall v i s c room, 0 <= v -> 0 <= i -> rel s c room ->
  wrote rel c room (le k (v / 2 ^ i)) True
    (let* (ok, s') := SerializeFixed_loop W k v i s in
     Done (if ok then NoErrors else BufferFull, s')).
Proof.
  induction k as [|k IH]; intros v i s c room Hv Hi Hr.
  - cbn [SerializeFixed_loop bind le]. now apply wrote_nil.
  - cbn [SerializeFixed_loop le].
    rewrite land_255, Z.shiftr_div_pow2 by lia. rewrite u8_small by lia.
    assert (Hb : is_byte ((v / 2 ^ i) mod 256)) by (unfold is_byte; lia).
    assert (E256 : v / 2 ^ i / 256 = v / 2 ^ (i + 8)).
    { rewrite Z.pow_add_r by lia. rewrite Z.div_div; [reflexivity| |lia].
      assert (0 < 2 ^ i) by (apply Z.pow_pos_nonneg; lia). lia. }
    rewrite E256.
    destruct (push_cases s c room _ Hr Hb) as [(s' & -> & H' & Hn')|(s' & -> & -> & H')];
      cbn [bind].
    + apply wrote_cons; [exact Hn'|]. apply IH; auto; lia.
    + apply wrote_full with 0; auto; [discriminate|]. rewrite zlen_cons.
      pose proof (zlen_nonneg (le k (v / 2 ^ (i + 8)))). lia.
Qed.

Lemma SerializeFixedNoTag_wrote w k v s c room : w = 8 * Z.of_nat k -> 0 <= v -> rel s c room ->
  wrote rel c room (le k v) True (SerializeFixedNoTag W w v s).
Proof.
  intros -> Hv H. unfold SerializeFixedNoTag.
  replace (Z.to_nat (8 * Z.of_nat k / 8)) with k by lia.
  pose proof (SerializeFixed_wrote k v 0 s c room Hv ltac:(lia) H) as P.
  rewrite Z.pow_0_r, Z.div_1_r in P. exact P.
Qed.

Lemma MakeTag_spec num w : 0 <= num < 2 ^ 29 -> MakeTag num w = num * 8 + wt_code w.
Proof.
  intros H. unfold MakeTag. rewrite Z.shiftl_mul_pow2 by lia. change (2 ^ 3) with 8.
  rewrite u32_small by lia. rewrite Z.lor_comm.
  change 8 with (2 ^ 3). rewrite lor_disjoint; [lia|lia|]. destruct w; cbn; lia.
Qed.

Lemma wt_code_range w : 0 <= wt_code w <= 5.
Proof. destruct w; cbn; lia. Qed.

Lemma with_tag_wrote num w bs tight k s c room :
  0 <= num < 2 ^ 29 -> rel s c room ->
  (forall s' c' room', rel s' c' room' -> wrote rel c' room' bs tight (k s')) ->
  wrote rel c room (tag num w ++ bs) tight (with_tag W num w k s).
Proof.
  intros Hn H Hk. unfold with_tag.
  apply wrote_bind.
  - rewrite MakeTag_spec by assumption. eapply wrote_weaken; [|apply SerializeVarint_wrote; auto].
    + tauto.
    + pose proof (wt_code_range w). lia.
  - intros s' Hs'. now apply Hk.
Qed.

End W.
