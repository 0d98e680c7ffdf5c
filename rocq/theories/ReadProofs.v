(** Proofs about the reading functions of WireFormatter. *)
From Verif Require Import Base Buffers Wire Schema Spec Contracts BitLemmas.
From Coq Require Import ZifyBool ZifyNat ZifyN.
Ltac Zify.zify_post_hook ::= Z.div_mod_to_equations.

(** Number of bytes the varint reader of a [w]-bit type accepts. *)
Definition vbytes (w : Z) : nat := if w =? 32 then 5 else 10.

Definition width (w : Z) : Prop := w = 32 \/ w = 64.

Lemma vbytes_n w : width w -> n_bytes_in_varint w = Z.of_nat (vbytes w) /\ 7 * (Z.of_nat (vbytes w) - 1) <= w
  /\ (vbytes w <= 10)%nat /\ (0 < vbytes w)%nat.
Proof. intros [->| ->]; cbn; lia. Qed.

Lemma varint_value_nonneg bs : 0 <= varint_value bs.
Proof. induction bs; cbn [varint_value]; lia. Qed.

Section R.
Context {S : Type} {R : rops S} {rel : S -> list Z -> Prop} (ok : reader_ok R rel).

Lemma step_temp w i temp b : width w -> 0 <= i -> i < Z.of_nat (vbytes w) -> 0 <= temp < 2 ^ (7 * i) ->
  Z.lor temp (uw w (Z.shiftl (Z.land b 127) (i * VARINT_SHIFT_N_BITS)))
  = (temp + (b mod 128) * 2 ^ (7 * i)) mod 2 ^ w.
Proof.
  intros Hw Hi Hk Ht. destruct (vbytes_n w Hw) as (_ & H7 & _).
  unfold uw, VARINT_SHIFT_N_BITS. rewrite land_127, Z.shiftl_mul_pow2 by lia.
  rewrite (Z.mul_comm i 7). apply lor_shift_mod; lia.
Qed.

Lemma step_bound w i temp b : width w -> 0 <= i -> 0 <= temp < 2 ^ (7 * i) ->
  0 <= (temp + (b mod 128) * 2 ^ (7 * i)) mod 2 ^ w < 2 ^ (7 * (i + 1)).
Proof.
  intros Hw Hi Ht. assert (Hp : 0 < 2 ^ (7 * i)) by (apply Z.pow_pos_nonneg; lia).
  assert (Hw' : 0 < 2 ^ w) by (destruct Hw; subst; cbn; lia).
  pose proof (Z.mod_pos_bound b 128 ltac:(lia)).
  replace (7 * (i + 1)) with (7 * i + 7) by lia. rewrite Z.pow_add_r by lia. change (2 ^ 7) with 128.
  split; [apply Z.mod_pos_bound; lia|].
  apply Z.le_lt_trans with (temp + b mod 128 * 2 ^ (7 * i)); [|nia].
  apply Z.mod_le; nia.
Qed.

Lemma DV_loop_wf w : width w -> forall init last rest n i temp byte s,
  Forall (fun b => 128 <= b < 256) init -> 0 <= last < 128 ->
  rel s (init ++ last :: rest) -> 0 <= i -> i + zlen init < Z.of_nat (vbytes w) ->
  (length init < n)%nat -> 0 <= temp < 2 ^ (7 * i) ->
  exists s', DeserializeVarint_loop R n w i temp byte s
    = Done (true, last, (temp + varint_value (init ++ [last]) * 2 ^ (7 * i)) mod 2 ^ w, s')
    /\ rel s' rest.
Proof.
  intros Hw. destruct (vbytes_n w Hw) as (Hnb & _).
  induction init as [|b init IH]; intros last rest n i temp byte s Hf Hl Hr Hi Hk Hn Ht;
    (destruct n as [|n]; [cbn in Hn; lia|]); cbn [DeserializeVarint_loop]; rewrite Hnb.
  - cbn [app] in Hr. destruct (ro_pop_cons _ _ ok _ _ _ Hr) as (s' & -> & Hs'). cbn [bind].
    rewrite zlen_nil in Hk. rewrite step_temp by (auto; lia).
    unfold VARINT_MSB_BYTE. rewrite msb_test by lia. destruct (Z.ltb_spec last 128); [|lia].
    cbn [negb andb]. exists s'. split; [|exact Hs']. cbn [app varint_value]. 
    rewrite Z.mul_0_r, Z.add_0_r. reflexivity.
  - inversion Hf; subst. rewrite zlen_cons in Hk. pose proof (zlen_nonneg init).
    cbn [app] in Hr. destruct (ro_pop_cons _ _ ok _ _ _ Hr) as (s' & -> & Hs'). cbn [bind].
    rewrite step_temp by (auto; lia).
    unfold VARINT_MSB_BYTE. rewrite msb_test by lia. destruct (Z.ltb_spec b 128); [lia|].
    destruct (Z.ltb_spec (i + 1) (Z.of_nat (vbytes w))); [|lia]. cbn [negb andb].
    destruct (IH last rest n (i + 1) ((temp + (b mod 128) * 2 ^ (7 * i)) mod 2 ^ w) b s') as (s2 & E & Hs2);
      auto; try lia; [cbn in Hn; lia|apply step_bound; auto|].
    exists s2. split; [|exact Hs2]. rewrite E. do 2 f_equal.
    assert (0 < 2 ^ w) by (destruct Hw; subst; cbn; lia).
    rewrite Zplus_mod_idemp_l. do 2 f_equal. cbn [app varint_value].
    replace (7 * (i + 1)) with (7 * i + 7) by lia. rewrite Z.pow_add_r by lia. change (2 ^ 7) with 128. ring_simplify. ring.
Qed.

Lemma DV_loop_over w : width w -> forall l rest n i temp byte s,
  Forall (fun b => 128 <= b < 256) l -> rel s (l ++ rest) -> 0 <= i ->
  i + zlen l = Z.of_nat (vbytes w) -> l <> [] -> (length l <= n)%nat ->
  exists s' byte' temp', DeserializeVarint_loop R n w i temp byte s = Done (true, byte', temp', s')
    /\ 128 <= byte' < 256 /\ rel s' rest.
Proof.
  intros Hw. destruct (vbytes_n w Hw) as (Hnb & _).
  induction l as [|b l IH]; intros rest n i temp byte s Hf Hr Hi Hk Hne Hn; [congruence|].
  destruct n as [|n]; [cbn in Hn; lia|]. cbn [DeserializeVarint_loop]. rewrite Hnb.
  inversion Hf; subst. rewrite zlen_cons in Hk.
  cbn [app] in Hr. destruct (ro_pop_cons _ _ ok _ _ _ Hr) as (s' & -> & Hs'). cbn [bind].
  unfold VARINT_MSB_BYTE. rewrite msb_test by lia. destruct (Z.ltb_spec b 128); [lia|].
  cbn [negb andb]. destruct l as [|b' l].
  - rewrite zlen_nil in Hk. destruct (Z.ltb_spec (i + 1) (Z.of_nat (vbytes w))); [lia|]. cbn [andb].
    exists s', b. eexists. split; [reflexivity|]. auto.
  - rewrite zlen_cons in Hk. pose proof (zlen_nonneg l).
    destruct (Z.ltb_spec (i + 1) (Z.of_nat (vbytes w))); [|lia]. cbn [andb].
    apply IH with (rest := rest); auto; try lia; try discriminate.
    + rewrite zlen_cons. lia.
    + cbn in *. lia.
Qed.

Lemma DV_loop_end w : width w -> forall l n i temp byte s,
  Forall (fun b => 128 <= b < 256) l -> rel s l -> 0 <= i ->
  i + zlen l < Z.of_nat (vbytes w) -> (length l < n)%nat ->
  exists s' byte' temp', DeserializeVarint_loop R n w i temp byte s = Done (false, byte', temp', s')
    /\ rel s' [].
Proof.
  intros Hw. destruct (vbytes_n w Hw) as (Hnb & _).
  induction l as [|b l IH]; intros n i temp byte s Hf Hr Hi Hk Hn;
    (destruct n as [|n]; [cbn in Hn; lia|]); cbn [DeserializeVarint_loop]; rewrite Hnb.
  - destruct (ro_pop_nil _ _ ok _ Hr) as (s' & -> & Hs'). cbn [bind]. rewrite andb_false_r.
    eauto.
  - inversion Hf; subst. rewrite zlen_cons in Hk. pose proof (zlen_nonneg l).
    destruct (ro_pop_cons _ _ ok _ _ _ Hr) as (s' & -> & Hs'). cbn [bind].
    unfold VARINT_MSB_BYTE. rewrite msb_test by lia. destruct (Z.ltb_spec b 128); [lia|].
    destruct (Z.ltb_spec (i + 1) (Z.of_nat (vbytes w))); [|lia]. cbn [negb andb].
    apply IH; auto; try lia. cbn in Hn. lia.
Qed.

(** Reading a terminated varint. *)
Lemma DeserializeVarint_wf w bs rest s : width w -> varint_wf (vbytes w) bs -> rel s (bs ++ rest) ->
  exists s', DeserializeVarint R w s = Done (NoErrors, Some (varint_value bs mod 2 ^ w), s')
    /\ rel s' rest.
Proof.
  intros Hw (init & last & -> & Hlen & Hf & Hl) Hr. unfold DeserializeVarint.
  rewrite app_length in Hlen. cbn in Hlen. destruct (vbytes_n w Hw) as (_ & _ & H10 & _).
  rewrite <- app_assoc in Hr. cbn [app] in Hr.
  destruct (DV_loop_wf w Hw init last rest 10 0 0 0 s) as (s' & -> & Hs'); auto;
    try (unfold zlen; cbn; lia); try (cbn; lia).
  cbn [bind]. unfold VARINT_MSB_BYTE. rewrite msb_test by lia. destruct (Z.ltb_spec last 128); [|lia].
  cbn [negb]. exists s'. split; [|exact Hs']. rewrite Z.mul_0_r, Z.pow_0_r, Z.mul_1_r, Z.add_0_l.
  reflexivity.
Qed.

Lemma DeserializeVarint_over w l rest s : width w -> Forall (fun b => 128 <= b < 256) l ->
  length l = vbytes w -> rel s (l ++ rest) ->
  exists s', DeserializeVarint R w s = Done (OverlongVarint, None, s') /\ rel s' rest.
Proof.
  intros Hw Hf Hlen Hr. unfold DeserializeVarint. destruct (vbytes_n w Hw) as (_ & _ & H10 & H0).
  destruct (DV_loop_over w Hw l rest 10 0 0 0 s) as (s' & byte & temp & -> & Hb & Hs'); auto;
    try (unfold zlen; lia); try lia; [destruct l; cbn in *; [lia|discriminate]|].
  cbn [bind]. unfold VARINT_MSB_BYTE. rewrite msb_test by lia. destruct (Z.ltb_spec byte 128); [lia|].
  cbn [negb]. eauto.
Qed.

Lemma DeserializeVarint_end w l s : width w -> Forall (fun b => 128 <= b < 256) l ->
  (length l < vbytes w)%nat -> rel s l ->
  exists s', DeserializeVarint R w s = Done (EndOfBuffer, None, s') /\ rel s' [].
Proof.
  intros Hw Hf Hlen Hr. unfold DeserializeVarint. destruct (vbytes_n w Hw) as (_ & _ & H10 & H0).
  destruct (DV_loop_end w Hw l 10 0 0 0 s) as (s' & byte & temp & -> & Hs'); auto;
    try (unfold zlen; lia); try lia.
  cbn [bind]. eauto.
Qed.

(** Every byte string falls in one of the three cases. *)
Lemma varint_trichotomy k l : Forall is_byte l ->
  (exists bs rest, l = bs ++ rest /\ varint_wf k bs)
  \/ (exists hd rest, l = hd ++ rest /\ length hd = k /\ Forall (fun b => 128 <= b < 256) hd)
  \/ ((length l < k)%nat /\ Forall (fun b => 128 <= b < 256) l).
Proof.
  revert l. induction k as [|k IH]; intros l Hl.
  - right. left. exists [], l. auto.
  - destruct l as [|b l].
    + right. right. cbn. split; [lia|constructor].
    + inversion Hl; subst. unfold is_byte in *. destruct (Z.lt_ge_cases b 128).
      * left. exists [b], l. split; [reflexivity|]. exists [], b. cbn. repeat split; auto; try lia.
      * destruct (IH l) as [(bs & rest & -> & init & last & -> & Hlen & Hf & Hla)
                           |[(hd & rest & -> & Hlen & Hf)|(Hlen & Hf)]]; auto.
        -- left. exists (b :: init ++ [last]), rest. split; [reflexivity|].
           exists (b :: init), last. cbn. rewrite app_length in *. cbn in *.
           repeat split; auto; try lia. constructor; auto; lia.
        -- right. left. exists (b :: hd), rest. cbn. repeat split; auto. constructor; auto; lia.
        -- right. right. cbn. split; [lia|]. constructor; auto; lia.
Qed.

Lemma DeserializeInt_wf w bs rest s : width w -> varint_wf 10 bs -> rel s (bs ++ rest) ->
  exists s', DeserializeInt R w s = Done (NoErrors, Some (to_signed w (varint_value bs)), s')
    /\ rel s' rest.
Proof.
  intros Hw Hb Hr. unfold DeserializeInt.
  destruct (DeserializeVarint_wf 64 bs rest s) as (s' & -> & Hs'); auto; [now right|].
  cbn [bind option_map]. exists s'. split; [|exact Hs']. do 3 f_equal. unfold sw, to_signed.
  assert (E : (varint_value bs mod 2 ^ 64) mod 2 ^ w = varint_value bs mod 2 ^ w).
  { destruct Hw; subst.
    - symmetry. apply Znumtheory.Zmod_div_mod; try (cbn; lia). exists (2 ^ 32). reflexivity.
    - apply Z.mod_mod. cbn; lia. }
  rewrite E. reflexivity.
Qed.

Lemma DeserializeSInt_wf w bs rest s : width w -> varint_wf 10 bs -> rel s (bs ++ rest) ->
  exists s', DeserializeSInt R w s = Done (NoErrors, Some (ZigZagDecode w (varint_value bs mod 2 ^ w)), s')
    /\ rel s' rest.
Proof.
  intros Hw Hb Hr. unfold DeserializeSInt.
  destruct (DeserializeVarint_wf 64 bs rest s) as (s' & -> & Hs'); auto; [now right|].
  cbn [bind option_map]. exists s'. split; [|exact Hs']. do 5 f_equal. unfold uw.
  destruct Hw; subst.
  - symmetry. apply Znumtheory.Zmod_div_mod; try (cbn; lia). exists (2 ^ 32). reflexivity.
  - apply Z.mod_mod. cbn; lia.
Qed.

(** Fixed width. *)
Lemma le_value_bound bs : Forall is_byte bs -> 0 <= le_value bs < 2 ^ (8 * zlen bs).
Proof.
  induction 1; cbn [le_value]; [cbn; lia|]. rewrite zlen_cons.
  replace (8 * (1 + zlen l)) with (8 + 8 * zlen l) by lia. pose proof (zlen_nonneg l).
  rewrite Z.pow_add_r by lia. change (2 ^ 8) with 256. unfold is_byte in *. lia.
Qed.

Lemma DF_loop_full : forall bs rest w i temp s, Forall is_byte bs -> rel s (bs ++ rest) ->
  0 <= i -> i + 8 * zlen bs <= w -> 0 <= temp < 2 ^ i ->
  exists s', DeserializeFixed_loop R (length bs) w i temp s
    = Done (true, temp + le_value bs * 2 ^ i, s') /\ rel s' rest.
Proof.
  induction bs as [|b bs IH]; intros rest w i temp s Hf Hr Hi Hw Ht.
  - cbn [length DeserializeFixed_loop le_value]. rewrite Z.add_0_r. eauto.
  - inversion Hf; subst. cbn [length DeserializeFixed_loop]. rewrite zlen_cons in Hw.
    pose proof (zlen_nonneg bs).
    cbn [app] in Hr. destruct (ro_pop_cons _ _ ok _ _ _ Hr) as (s' & -> & Hs'). cbn [bind].
    assert (Hp : 0 < 2 ^ i) by (apply Z.pow_pos_nonneg; lia).
    assert (E : Z.lor temp (uw w (Z.shiftl b i)) = temp + b * 2 ^ i).
    { unfold uw. rewrite Z.shiftl_mul_pow2 by lia.
      assert (Hbw : 0 <= b * 2 ^ i < 2 ^ w).
      { unfold is_byte in *. split; [nia|]. apply Z.lt_le_trans with (2 ^ (i + 8)).
        - rewrite Z.pow_add_r by lia. change (2 ^ 8) with 256. nia.
        - apply Z.pow_le_mono_r; lia. }
      rewrite Z.mod_small by lia. apply lor_disjoint; lia. }
    rewrite E.
    destruct (IH rest w (i + 8) (temp + b * 2 ^ i) s') as (s2 & -> & Hs2); auto; try lia.
    { rewrite Z.pow_add_r by lia. change (2 ^ 8) with 256. unfold is_byte in *. nia. }
    exists s2. split; [|exact Hs2]. do 3 f_equal. cbn [le_value].
    rewrite Z.pow_add_r by lia. change (2 ^ 8) with 256. ring.
Qed.

Lemma DF_loop_short : forall l n w i temp s, rel s l -> (length l < n)%nat ->
  exists temp' s', DeserializeFixed_loop R n w i temp s = Done (false, temp', s') /\ rel s' [].
Proof.
  induction l as [|b l IH]; intros n w i temp s Hr Hn; (destruct n as [|n]; [cbn in Hn; lia|]);
    cbn [DeserializeFixed_loop].
  - destruct (ro_pop_nil _ _ ok _ Hr) as (s' & -> & Hs'). cbn [bind]. eauto.
  - destruct (ro_pop_cons _ _ ok _ _ _ Hr) as (s' & -> & Hs'). cbn [bind]. apply IH; auto.
    cbn in Hn. lia.
Qed.

Lemma DeserializeFixed_full w bs rest s : w = 8 * zlen bs -> Forall is_byte bs -> rel s (bs ++ rest) ->
  exists s', DeserializeFixed R w s = Done (NoErrors, Some (le_value bs), s') /\ rel s' rest.
Proof.
  intros -> Hf Hr. unfold DeserializeFixed.
  replace (Z.to_nat (8 * zlen bs / 8)) with (length bs) by (unfold zlen; lia).
  destruct (DF_loop_full bs rest (8 * zlen bs) 0 0 s) as (s' & -> & Hs'); auto; try lia.
  cbn [bind]. exists s'. rewrite Z.pow_0_r, Z.mul_1_r, Z.add_0_l. auto.
Qed.

Lemma DeserializeFixed_short w l s : 8 * zlen l < w -> w mod 8 = 0 -> rel s l ->
  exists s', DeserializeFixed R w s = Done (EndOfBuffer, None, s') /\ rel s' [].
Proof.
  intros Hl Hw Hr. unfold DeserializeFixed.
  destruct (DF_loop_short l (Z.to_nat (w / 8)) w 0 0 s) as (t & s' & -> & Hs'); auto.
  { unfold zlen in *. lia. }
  cbn [bind]. eauto.
Qed.

(** Tags. *)
Lemma DeserializeTag_wf bs rest s num w : varint32 bs (num * 8 + wt_code w) -> 0 <= num ->
  rel s (bs ++ rest) ->
  exists s', DeserializeTag R s = Done (NoErrors, Some (w, num), s') /\ rel s' rest.
Proof.
  intros (Hwf & Hv) Hn Hr. unfold DeserializeTag.
  destruct (DeserializeVarint_wf 32 bs rest s) as (s' & -> & Hs'); auto; [now left|].
  cbn [bind]. rewrite Hv, land_7.
  assert (Hc : 0 <= wt_code w <= 5) by (destruct w; cbn; lia).
  replace ((num * 8 + wt_code w) mod 8) with (wt_code w) by lia.
  cbn [wt_code]. destruct (Z.leb_spec (wt_code w) 5); [|lia].
  rewrite Z.shiftr_div_pow2 by lia. change (2 ^ 3) with 8.
  replace ((num * 8 + wt_code w) / 8) with num by lia.
  replace (wt_of_code (wt_code w)) with w by (destruct w; reflexivity). eauto.
Qed.

Lemma DeserializeTag_nil s : rel s [] ->
  exists s', DeserializeTag R s = Done (EndOfBuffer, None, s') /\ rel s' [].
Proof.
  intros Hr. unfold DeserializeTag.
  destruct (DeserializeVarint_end 32 [] s) as (s' & -> & Hs'); auto; [now left|cbn;lia|].
  cbn [bind]. eauto.
Qed.

End R.

(** The canonical encoding is a terminated varint with the right value. *)
Lemma varint_groups_wf k : forall n, (0 < k)%nat -> 0 <= n < 2 ^ (7 * Z.of_nat k) ->
  varint_wf k (varint_groups k n) /\ varint_value (varint_groups k n) = n.
Proof.
  induction k as [|k IH]; intros n Hk Hn; [lia|]. cbn [varint_groups].
  destruct (Z.ltb_spec n 128).
  - split.
    + exists [], n. cbn. repeat split; auto; lia.
    + cbn [varint_value]. lia.
  - destruct k as [|k].
    { change (2 ^ (7 * Z.of_nat 1)) with 128 in Hn. lia. }
    assert (Hv' : 0 <= n / 128 < 2 ^ (7 * Z.of_nat (S k))).
    { split; [lia|]. apply Z.div_lt_upper_bound; [lia|].
      replace (7 * Z.of_nat (S (S k))) with (7 + 7 * Z.of_nat (S k)) in Hn by lia.
      rewrite Z.pow_add_r in Hn by lia. lia. }
    destruct (IH (n / 128) ltac:(lia) Hv') as ((init & last & E & Hlen & Hf & Hl) & Hval).
    split.
    + rewrite E. exists ((128 + n mod 128) :: init), last. rewrite E in Hlen. cbn [app length].
      repeat split; try lia. constructor; auto. lia.
    + cbn [varint_value]. rewrite Hval. lia.
Qed.

Lemma varint_groups_mono k k' : forall n, (0 < k <= k')%nat -> 0 <= n < 2 ^ (7 * Z.of_nat k) ->
  varint_groups k' n = varint_groups k n.
Proof.
  revert k'. induction k as [|k IH]; intros k' n Hk Hn; [lia|]. destruct k' as [|k']; [lia|].
  cbn [varint_groups]. destruct (Z.ltb_spec n 128); [reflexivity|]. f_equal.
  destruct k as [|k].
  { change (2 ^ (7 * Z.of_nat 1)) with 128 in Hn. lia. }
  apply IH; [lia|]. split; [lia|]. apply Z.div_lt_upper_bound; [lia|].
  replace (7 * Z.of_nat (S (S k))) with (7 + 7 * Z.of_nat (S k)) in Hn by lia.
  rewrite Z.pow_add_r in Hn by lia. lia.
Qed.

Lemma varint_wf64 n : 0 <= n < 2 ^ 64 -> varint_wf 10 (varint n) /\ varint_value (varint n) = n.
Proof. intros. unfold varint. apply varint_groups_wf; [lia|]. cbn; lia. Qed.

Lemma varint_wf32 n : 0 <= n < 2 ^ 32 -> varint_wf 5 (varint n) /\ varint_value (varint n) = n.
Proof.
  intros. unfold varint. rewrite (varint_groups_mono 5 10) by (cbn; lia).
  apply varint_groups_wf; [lia|]. cbn; lia.
Qed.

Lemma varint_varint32 n : 0 <= n < 2 ^ 32 -> varint32 (varint n) n.
Proof.
  intros H. destruct (varint_wf32 n H) as (Hw & Hv). split; [exact Hw|]. rewrite Hv.
  now apply Z.mod_small.
Qed.

Lemma varint_wf_bytes k bs : varint_wf k bs -> Forall is_byte bs.
Proof.
  intros (init & last & -> & _ & Hf & Hl). apply Forall_app. split.
  - eapply Forall_impl; [|exact Hf]. unfold is_byte. intros; lia.
  - constructor; auto. unfold is_byte. lia.
Qed.
Lemma varint_wf_weaken k k' bs : (k <= k')%nat -> varint_wf k bs -> varint_wf k' bs.
Proof. intros H (init & last & E & Hl & Hf & Hla). exists init, last. repeat split; auto; lia. Qed.
Lemma varint_wf_nonempty k bs : varint_wf k bs -> bs <> [].
Proof. intros (init & last & -> & _). destruct init; discriminate. Qed.

Lemma varint_bytes n : 0 <= n < 2 ^ 64 -> Forall is_byte (varint n).
Proof. intros. eapply varint_wf_bytes. apply varint_wf64. assumption. Qed.
Lemma varint_nonempty n : varint n <> [].
Proof. unfold varint. cbn [varint_groups]. destruct (n <? 128); discriminate. Qed.
Lemma zlen_varint_pos n : 0 < zlen (varint n).
Proof. pose proof (varint_nonempty n). destruct (varint n); [congruence|]. rewrite zlen_cons. pose proof (zlen_nonneg l). lia. Qed.

Lemma le_bytes k n : Forall is_byte (le k n).
Proof. revert n. induction k; intros n; cbn [le]; constructor; auto. unfold is_byte. lia. Qed.
Lemma le_length k n : length (le k n) = k.
Proof. revert n. induction k; intros n; cbn [le length]; auto. Qed.
Lemma le_le_value k n : 0 <= n < 2 ^ (8 * Z.of_nat k) -> le_value (le k n) = n.
Proof.
  revert n. induction k; intros n Hn; cbn [le le_value]; [cbn in Hn; lia|].
  rewrite IHk; [lia|]. split; [lia|]. apply Z.div_lt_upper_bound; [lia|].
  replace (8 * Z.of_nat (S k)) with (8 + 8 * Z.of_nat k) in Hn by lia.
  rewrite Z.pow_add_r in Hn by lia. lia.
Qed.
