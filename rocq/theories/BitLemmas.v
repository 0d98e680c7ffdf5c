(** Arithmetic and list lemmas. *)
From Verif Require Import Base Spec.
From Coq Require Import ZifyBool ZifyNat ZifyN.
Ltac Zify.zify_post_hook ::= Z.div_mod_to_equations.

Lemma zlen_nil {A} : zlen (@nil A) = 0. Proof. reflexivity. Qed.
Lemma zlen_cons {A} (x : A) l : zlen (x :: l) = 1 + zlen l.
Proof. unfold zlen. cbn [length]. lia. Qed.
Lemma zlen_app {A} (l l' : list A) : zlen (l ++ l') = zlen l + zlen l'.
Proof. unfold zlen. rewrite app_length. lia. Qed.
Lemma zlen_nonneg {A} (l : list A) : 0 <= zlen l.
Proof. unfold zlen. lia. Qed.
Lemma zlen_firstn {A} n (l : list A) : zlen (firstn n l) = Z.min (Z.of_nat n) (zlen l).
Proof. unfold zlen. rewrite firstn_length. lia. Qed.
Lemma zlen_skipn {A} n (l : list A) : zlen (skipn n l) = Z.max 0 (zlen l - Z.of_nat n).
Proof. unfold zlen. rewrite skipn_length. lia. Qed.
Lemma zlen_map {A B} (f : A -> B) l : zlen (map f l) = zlen l.
Proof. unfold zlen. now rewrite map_length. Qed.
Lemma zlen_zrepeat {A} (x : A) n : 0 <= n -> zlen (zrepeat x n) = n.
Proof. intros. unfold zlen, zrepeat. rewrite repeat_length. lia. Qed.
Lemma length_upd {A} n (x : A) l : length (upd n x l) = length l.
Proof. revert n. induction l; destruct n; cbn; auto. Qed.
Lemma zlen_upd {A} n (x : A) l : zlen (upd n x l) = zlen l.
Proof. unfold zlen. now rewrite length_upd. Qed.
Lemma zlen_0 {A} (l : list A) : zlen l = 0 -> l = [].
Proof. destruct l; [reflexivity | rewrite zlen_cons; pose proof (zlen_nonneg l); lia]. Qed.

Lemma upd_spec {A} n (x : A) l : (n < length l)%nat -> upd n x l = firstn n l ++ x :: skipn (S n) l.
Proof.
  revert n. induction l as [|y l IH]; intros [|n] H; cbn in *; try lia; auto.
  rewrite IH by lia. reflexivity.
Qed.
Lemma nth_error_upd_same {A} n (x : A) l : (n < length l)%nat -> nth_error (upd n x l) n = Some x.
Proof. revert n. induction l as [|y l IH]; intros [|n] H; cbn in *; try lia; auto. apply IH; lia. Qed.
Lemma nth_error_upd_other {A} n m (x : A) l : n <> m -> nth_error (upd n x l) m = nth_error l m.
Proof.
  revert n m. induction l as [|y l IH]; intros [|n] [|m] H; cbn in *; try lia; auto; congruence.
Qed.
Lemma upd_same {A} n (x : A) l : nth_error l n = Some x -> upd n x l = l.
Proof. revert n. induction l as [|y l IH]; intros [|n] H; cbn in *; try congruence; f_equal; auto. Qed.
Lemma map_upd {A B} (f : A -> B) n x l : map f (upd n x l) = upd n (f x) (map f l).
Proof. revert n. induction l as [|y l IH]; intros [|n]; cbn; auto. now rewrite IH. Qed.
Lemma Forall_upd {A} (P : A -> Prop) n x l : Forall P l -> P x -> Forall P (upd n x l).
Proof. intros Hl Hx. revert n. induction Hl; intros [|n]; cbn; constructor; auto. Qed.

Lemma aget_Done {A} (l : list A) i x : aget l i = Done x -> nth_error l (Z.to_nat i) = Some x /\ 0 <= i < zlen l.
Proof.
  unfold aget. destruct (Z.leb_spec 0 i); [|discriminate].
  destruct (nth_error l (Z.to_nat i)) eqn:E; [|discriminate].
  intros [= <-]. split; auto.
  assert (Z.to_nat i < length l)%nat by (apply nth_error_Some; congruence). unfold zlen; lia.
Qed.
Lemma aget_nth {A} (l : list A) i x : 0 <= i -> nth_error l (Z.to_nat i) = Some x -> aget l i = Done x.
Proof. intros H E. unfold aget. apply Z.leb_le in H. rewrite H, E. reflexivity. Qed.
Lemma aget_nat {A} (l : list A) n x : nth_error l n = Some x -> aget l (Z.of_nat n) = Done x.
Proof. intros E. apply aget_nth; [lia|]. now rewrite Nat2Z.id. Qed.
Lemma aget_ok {A} (l : list A) i : 0 <= i < zlen l -> exists x, aget l i = Done x /\ nth_error l (Z.to_nat i) = Some x.
Proof.
  intros H. destruct (nth_error l (Z.to_nat i)) as [x|] eqn:E.
  - exists x. split; auto. apply aget_nth; auto; lia.
  - apply nth_error_None in E. unfold zlen in H. lia.
Qed.
Lemma aset_ok {A} (l : list A) i x : 0 <= i < zlen l -> aset l i x = Done (upd (Z.to_nat i) x l).
Proof.
  intros H. unfold aset. destruct (Z.leb_spec 0 i); [|lia]. destruct (Z.ltb_spec i (zlen l)); [|lia].
  reflexivity.
Qed.
Lemma aset_nat {A} (l : list A) n x : (n < length l)%nat -> aset l (Z.of_nat n) x = Done (upd n x l).
Proof. intros. rewrite aset_ok by (unfold zlen; lia). now rewrite Nat2Z.id. Qed.
Lemma nth_error_lt {A} (l : list A) n x : nth_error l n = Some x -> (n < length l)%nat.
Proof. intros. apply nth_error_Some. congruence. Qed.

Lemma memcpy_ok {A} (dst : list A) off src len :
  0 <= off -> 0 <= len <= zlen src -> off + len <= zlen dst ->
  memcpy dst off src len = Done (firstn (Z.to_nat off) dst ++ firstn (Z.to_nat len) src
                                 ++ skipn (Z.to_nat (off + len)) dst).
Proof.
  intros. unfold memcpy.
  replace ((0 <=? off) && (0 <=? len) && (len <=? zlen src) && (off + len <=? zlen dst)) with true;
    [reflexivity|lia].
Qed.

Lemma skipn_cons_nth {A} n (l : list A) x : nth_error l n = Some x -> skipn n l = x :: skipn (S n) l.
Proof. revert n. induction l as [|y l IH]; intros [|n] H; cbn in *; try congruence. now apply IH. Qed.
Lemma firstn_S_nth {A} n (l : list A) x : nth_error l n = Some x -> firstn (S n) l = firstn n l ++ [x].
Proof. revert n. induction l as [|y l IH]; intros [|n] H; cbn in *; try congruence. f_equal. now apply IH. Qed.
Lemma Forall_firstn {A} (P : A -> Prop) n l : Forall P l -> Forall P (firstn n l).
Proof. intros H. revert n. induction H; intros [|n]; cbn; auto. Qed.
Lemma Forall_skipn {A} (P : A -> Prop) n l : Forall P l -> Forall P (skipn n l).
Proof. intros H. revert n. induction H; intros [|n]; cbn; auto. Qed.
Lemma firstn_upd_ge {A} n m (x : A) l : (n <= m)%nat -> firstn n (upd m x l) = firstn n l.
Proof. revert n m. induction l; intros [|n] [|m] H; cbn; auto; try lia. f_equal. apply IHl. lia. Qed.
Lemma skipn_upd_lt {A} n m (x : A) l : (m < n)%nat -> skipn n (upd m x l) = skipn n l.
Proof. revert n m. induction l; intros [|n] [|m] H; cbn; auto; try lia. apply IHl. lia. Qed.
Lemma firstn_S_upd {A} n (x : A) l : (n < length l)%nat -> firstn (S n) (upd n x l) = firstn n l ++ [x].
Proof.
  revert n. induction l; intros [|n] H; cbn in *; auto; try lia. f_equal. apply IHl. lia.
Qed.
Lemma skipn_skipn' {A} n m (l : list A) : skipn n (skipn m l) = skipn (m + n) l.
Proof. revert l. induction m; intros [|x l]; cbn; auto. now rewrite skipn_nil. Qed.

(** [all]/[all2] *)
Lemma all_Forall {A} (P : A -> Prop) l : all P l <-> Forall P l.
Proof.
  induction l as [|x l IH]; cbn; split; intros H; auto.
  - destruct H. constructor; auto. now apply IH.
  - inversion H; subst. split; auto. now apply IH.
Qed.
Lemma all2_nth {A B} (P : A -> B -> Prop) l l' n x :
  all2 P l l' -> nth_error l n = Some x -> exists y, nth_error l' n = Some y /\ P x y.
Proof.
  revert l' n. induction l as [|a l IH]; intros [|b l'] n H E; cbn in *; try tauto;
    destruct n; cbn in *; try discriminate.
  - injection E as <-. exists b. tauto.
  - apply IH; tauto.
Qed.
Lemma all2_length {A B} (P : A -> B -> Prop) l l' : all2 P l l' -> length l = length l'.
Proof. revert l'. induction l; intros [|b l'] H; cbn in *; try tauto. f_equal. apply IHl. tauto. Qed.
Lemma all2_upd {A B} (P : A -> B -> Prop) l l' n x y :
  all2 P l l' -> nth_error l n = Some x -> P x y -> all2 P l (upd n y l').
Proof.
  revert l' n. induction l as [|a l IH]; intros [|b l'] n H E Hp; cbn in *; try tauto;
    destruct n; cbn in *; try discriminate.
  - injection E as <-. tauto.
  - split; [tauto|]. apply IH; tauto.
Qed.

(** Bits *)
Lemma land_127 b : Z.land b 127 = b mod 128.
Proof. change 127 with (Z.ones 7). rewrite Z.land_ones by lia. reflexivity. Qed.
Lemma land_255 b : Z.land b 255 = b mod 256.
Proof. change 255 with (Z.ones 8). rewrite Z.land_ones by lia. reflexivity. Qed.
Lemma land_7 b : Z.land b 7 = b mod 8.
Proof. change 7 with (Z.ones 3). rewrite Z.land_ones by lia. reflexivity. Qed.
Lemma land_1 b : Z.land b 1 = b mod 2.
Proof. change 1 with (Z.ones 1) at 1. rewrite Z.land_ones by lia. reflexivity. Qed.

Lemma testbit_small a k n : 0 <= a < 2 ^ k -> k <= n -> Z.testbit a n = false.
Proof.
  intros Ha Hk. destruct (Z.eq_dec a 0) as [->|]; [apply Z.bits_0|].
  apply Z.bits_above_log2; [lia|]. apply Z.lt_le_trans with k; [|lia].
  apply Z.log2_lt_pow2; lia.
Qed.
Lemma lor_disjoint a b k : 0 <= k -> 0 <= a < 2 ^ k -> Z.lor a (b * 2 ^ k) = a + b * 2 ^ k.
Proof.
  intros Hk Ha. assert (Hd : Z.land a (b * 2 ^ k) = 0).
  { apply Z.bits_inj'. intros n Hn. rewrite Z.land_spec, Z.bits_0.
    destruct (Z.lt_ge_cases n k).
    - rewrite Z.mul_pow2_bits_low by lia. apply andb_false_r.
    - rewrite (testbit_small a k n) by lia. reflexivity. }
  rewrite Z.add_nocarry_lxor by assumption. rewrite Z.lxor_lor by assumption. reflexivity.
Qed.
Lemma mul_pow2_mod b k w : 0 <= k <= w -> (b * 2 ^ k) mod 2 ^ w = (b mod 2 ^ (w - k)) * 2 ^ k.
Proof.
  intros H. replace w with ((w - k) + k) at 1 by lia.
  rewrite Z.pow_add_r by lia. rewrite Z.mul_mod_distr_r; auto.
  - assert (0 < 2 ^ (w - k)) by (apply Z.pow_pos_nonneg; lia). lia.
  - assert (0 < 2 ^ k) by (apply Z.pow_pos_nonneg; lia). lia.
Qed.
Lemma lor_shift_mod a b k w : 0 <= k <= w -> 0 <= a < 2 ^ k ->
  Z.lor a ((b * 2 ^ k) mod 2 ^ w) = (a + b * 2 ^ k) mod 2 ^ w.
Proof.
  intros Hk Ha. rewrite mul_pow2_mod by lia. rewrite lor_disjoint by lia.
  assert (0 < 2 ^ k) by (apply Z.pow_pos_nonneg; lia).
  assert (0 < 2 ^ (w - k)) by (apply Z.pow_pos_nonneg; lia).
  assert (E : 2 ^ w = 2 ^ (w - k) * 2 ^ k) by (rewrite <- Z.pow_add_r by lia; f_equal; lia).
  pose proof (Z.mod_pos_bound b (2 ^ (w - k)) ltac:(lia)) as Hb.
  apply Z.mod_unique with (b / 2 ^ (w - k)).
  - left. split; [nia|]. rewrite E. nia.
  - rewrite E. rewrite (Z.div_mod b (2 ^ (w - k))) at 1 by lia. ring.
Qed.

Lemma msb_test b : 0 <= b < 256 -> (Z.land b 128 =? 0) = (b <? 128).
Proof.
  intros H. destruct (Z.ltb_spec b 128).
  - replace (Z.land b 128) with 0; [reflexivity|]. symmetry. apply Z.bits_inj'. intros n Hn.
    rewrite Z.land_spec, Z.bits_0. change 128 with (2 ^ 7). rewrite Z.pow2_bits_eqb by lia.
    destruct (Z.eqb_spec 7 n); [subst|apply andb_false_r].
    rewrite (testbit_small b 7 7) by (cbn; lia). reflexivity.
  - apply Z.eqb_neq. intros E. assert (Hb : Z.testbit (Z.land b 128) 7 = false) by now rewrite E.
    rewrite Z.land_spec in Hb. replace b with (b - 128 + 1 * 2 ^ 7) in Hb by lia.
    rewrite <- (lor_disjoint (b - 128) 1 7) in Hb by (cbn; lia).
    rewrite Z.lor_spec in Hb. rewrite (testbit_small (b - 128) 7 7) in Hb by (cbn; lia).
    cbn in Hb. discriminate.
Qed.

Lemma u8_lor_128 v : 0 <= v -> u8 (Z.lor v 128) = 128 + v mod 128.
Proof.
  intros H. unfold u8. apply Z.bits_inj'. intros n Hn.
  replace (128 + v mod 128) with (v mod 128 + 1 * 2 ^ 7) by lia.
  rewrite <- lor_disjoint by (cbn; lia).
  change 128 with (2 ^ 7). change (1 * 2 ^ 7) with (2 ^ 7).
  destruct (Z.lt_ge_cases n 8).
  - rewrite Z.mod_pow2_bits_low by lia. rewrite !Z.lor_spec.
    rewrite Z.pow2_bits_eqb by lia.
    destruct (Z.eqb_spec 7 n).
    + now rewrite !orb_true_r.
    + rewrite Z.mod_pow2_bits_low by lia. reflexivity.
  - rewrite Z.mod_pow2_bits_high by lia. rewrite Z.lor_spec.
    rewrite Z.pow2_bits_false by lia. rewrite Z.mod_pow2_bits_high by lia. reflexivity.
Qed.

Lemma u8_small v : 0 <= v < 256 -> u8 v = v.
Proof. intros. unfold u8. apply Z.mod_small. cbn; lia. Qed.
Lemma u32_small v : 0 <= v < 2 ^ 32 -> u32 v = v.
Proof. intros. unfold u32. now apply Z.mod_small. Qed.

Lemma list_snoc_inv {A} (l : list A) : l = [] \/ exists l' x, l = l' ++ [x].
Proof. destruct l using rev_ind; [now left|right; eauto]. Qed.
