(** * CompareProps: proofs about the comparison operators. *)
From Verif Require Import Base Schema Spec Compare SpecCompare.
From Coq Require Import ZArith Bool Lia ZifyBool.
Ltac Zify.zify_post_hook ::= Z.div_mod_to_equations.

Lemma same_type_means op x y : same_type op x y = true <-> means op x y.
Proof. destruct op; cbn [same_type means]; lia. Qed.
Lemma same_type_mirrored op x y : same_type (mirrored op) y x = same_type op x y.
Proof. destruct op; cbn [same_type mirrored]; try reflexivity; rewrite Z.eqb_sym; reflexivity. Qed.
Lemma float_compare_mirrored e f op x y : float_compare e f (mirrored op) y x = float_compare e f op x y.
Proof. unfold float_compare. rewrite orb_comm, same_type_mirrored. destruct (_ || _); [destruct op; reflexivity|reflexivity]. Qed.
Lemma common_sym a b : common a b = common b a.
Proof.
  destruct a as [sa wa], b as [sb wb]. unfold common. cbn [fst snd]. rewrite (Z.eqb_sym wb wa). destruct (wa =? wb) eqn:E.
  - rewrite andb_comm. f_equal. lia.
  - destruct (wa <? wb) eqn:E1, (wb <? wa) eqn:E2; try reflexivity; lia.
Qed.

Lemma compare_mirrored op a x b y : field_compare (mirrored op) b y a x = field_compare op a x b y.
Proof.
  unfold field_compare. destruct (promoted a) as [ta|] eqn:Ea, (promoted b) as [tb|] eqn:Eb.
  - rewrite (common_sym tb ta), same_type_mirrored. reflexivity.
  - destruct a, b; try discriminate; cbn [to_double to_float]; rewrite ?float_compare_mirrored; reflexivity.
  - destruct a, b; try discriminate; cbn [to_double to_float]; rewrite ?float_compare_mirrored; reflexivity.
  - destruct a, b; try discriminate; cbn [to_double to_float]; rewrite ?same_type_mirrored, ?float_compare_mirrored; reflexivity.
Qed.

Lemma compare_decides op a x b y : (exists r, field_compare op a x b y = Some r) -> field_compare op a x b y = Some true \/ field_compare op a x b y = Some false.
Proof. intros [[|] ->]; auto. Qed.

Ltac all_cases H := unfold integer_type, signed_type, unsigned_type in H; cbn [In] in H.

Lemma integer_cases sc : integer_type sc -> exists t, promoted sc = Some t.
Proof. intros H. destruct sc; try (eexists; reflexivity); exfalso; all_cases H; intuition discriminate. Qed.

Lemma compare_integers op a x b y : integer_type a -> integer_type b -> scalar_range a x -> scalar_range b y ->
  (0 <= x /\ 0 <= y) \/ (signed_type a /\ signed_type b) \/ (signed_type a /\ width b < width a) \/ (signed_type b /\ width a < width b)
    \/ (signed_type a /\ b = Boolean) \/ (signed_type b /\ a = Boolean) ->
  exists r, field_compare op a x b y = Some r /\ (r = true <-> means op x y).
Proof.
  intros Ha Hb Hx Hy H. destruct (integer_cases a Ha) as [[sa wa] Ea], (integer_cases b Hb) as [[sb wb] Eb].
  unfold field_compare. rewrite Ea, Eb. eexists. split; [reflexivity|]. rewrite same_type_means.
  assert (Hc : convert (common (sa, wa) (sb, wb)) x = x /\ convert (common (sa, wa) (sb, wb)) y = y).
  { unfold convert, common. all_cases H.
    destruct a; try discriminate Ea; destruct b; try discriminate Eb; injection Ea as <- <-; injection Eb as <- <-;
      cbn [scalar_range fst snd andb Z.eqb Z.ltb Z.compare Pos.eqb Pos.compare Pos.compare_cont] in *; try (split; reflexivity);
      (assert (0 <= x /\ 0 <= y) by (first [lia|cbn [width] in H; intuition (discriminate || lia)])); rewrite !Z.mod_small; lia. }
  destruct Hc as [-> ->]. reflexivity.
Qed.

Lemma compare_enum op x y : exists r, field_compare op Enumeration x Enumeration y = Some r /\ (r = true <-> means op x y).
Proof. eexists. split; [reflexivity|apply same_type_means]. Qed.

(** A negative number and an unsigned field. *)
Lemma compare_wrapped op a x b y : signed_type a -> unsigned_type b -> width a <= width b -> scalar_range a x -> scalar_range b y -> x < 0 ->
  exists r, field_compare op a x b y = Some r /\ (r = true <-> means op (x + 2 ^ width b) y).
Proof.
  intros Ha Hb Hw Hx Hy Hn. all_cases Ha. all_cases Hb.
  assert (E : exists w, promoted a = Some (true, w) /\ w = width a) by (intuition subst; eexists; split; reflexivity). destruct E as (wa & Ea & ->).
  assert (E : promoted b = Some (false, width b)) by (intuition subst; reflexivity).
  assert (Rx : - 2 ^ width b <= x).
  { intuition subst; cbn [scalar_range width] in *; lia. }
  assert (Ry : 0 <= y < 2 ^ width b) by (intuition subst; cbn [scalar_range width] in *; lia).
  unfold field_compare. rewrite Ea, E. eexists. split; [reflexivity|]. rewrite same_type_means.
  assert (Hc : common (true, width a) (false, width b) = (false, width b)).
  { unfold common. cbn [fst snd andb]. destruct (width a =? width b) eqn:Ew; [f_equal; lia|]. replace (width a <? width b) with true by lia. reflexivity. }
  rewrite Hc. unfold convert. cbn [fst snd]. rewrite (Z.mod_small y) by lia.
  replace (x mod 2 ^ width b) with (x + 2 ^ width b); [reflexivity|].
  rewrite <- (Z.mod_small (x + 2 ^ width b) (2 ^ width b)) by lia. rewrite <- (Z.mul_1_l (2 ^ width b)) at 1. apply Z.mod_add. lia.
Qed.
Lemma compare_mixed a x b y : signed_type a -> unsigned_type b -> width a <= width b -> scalar_range a x -> scalar_range b y -> x < 0 ->
  (y = x + 2 ^ width b -> field_compare CEq a x b y = Some true) /\ (y <= x + 2 ^ width b -> field_compare CLt a x b y = Some false).
Proof.
  intros Ha Hb Hw Hx Hy Hn. split; intros H.
  - destruct (compare_wrapped CEq a x b y Ha Hb Hw Hx Hy Hn) as (r & -> & Hr). f_equal. apply Hr. cbn [means]. lia.
  - destruct (compare_wrapped CLt a x b y Ha Hb Hw Hx Hy Hn) as (r & -> & Hr). cbn [means] in Hr. f_equal. destruct r; [|reflexivity]. destruct Hr as [Hr _]. specialize (Hr eq_refl). lia.
Qed.

(** ** Floating point numbers *)

Ltac cmp_cases := match goal with |- (?a ?= ?b) = (?c ?= ?d) => destruct (Z.compare_spec a b), (Z.compare_spec c d) end; try reflexivity; exfalso; lia.

Section Float.
  Variables e f : Z.
  Hypotheses (He : 1 < e) (Hf : 1 < f).

  Lemma pow_split : 2 ^ (e + f) = 2 ^ e * 2 ^ f.
  Proof. apply Z.pow_add_r; lia. Qed.

  Definition magnitude (n m : Z) : Z := if n =? 0 then m else (2 ^ f + m) * 2 ^ (n - 1).
  Lemma magnitude_nonneg n m : parts e f n m -> 0 <= magnitude n m.
  Proof. intros [Hn Hm]. unfold magnitude. destruct (n =? 0); [lia|]. apply Z.mul_nonneg_nonneg; [lia|]. apply Z.pow_nonneg. lia. Qed.
  Lemma magnitude_lt n1 m1 n2 m2 : parts e f n1 m1 -> parts e f n2 m2 -> n1 * 2 ^ f + m1 < n2 * 2 ^ f + m2 -> magnitude n1 m1 < magnitude n2 m2.
  Proof.
    intros [Hn1 Hm1] [Hn2 Hm2] H. assert (Hle : n1 <= n2) by (destruct (Z_le_gt_dec n1 n2) as [K|K]; [exact K|]; assert (n2 * 2 ^ f + 2 ^ f <= n1 * 2 ^ f) by (replace (n2 * 2 ^ f + 2 ^ f) with ((n2 + 1) * 2 ^ f) by ring; apply Z.mul_le_mono_nonneg_r; lia); lia). unfold magnitude.
    destruct (n1 =? 0) eqn:E1, (n2 =? 0) eqn:E2.
    - assert (n1 = 0) by lia. assert (n2 = 0) by lia. subst. lia.
    - assert (1 <= 2 ^ (n2 - 1)) by (apply (Z.pow_le_mono_r 2 0); lia). apply Z.lt_le_trans with ((2 ^ f + m2) * 1); [lia|].
      apply Z.mul_le_mono_nonneg_l; lia.
    - lia.
    - assert (P : 0 < 2 ^ (n1 - 1)) by (apply Z.pow_pos_nonneg; lia). destruct (Z.eq_dec n1 n2) as [->|Hne].
      + apply Z.mul_lt_mono_pos_r; lia.
      + assert (Q : 2 * 2 ^ (n1 - 1) <= 2 ^ (n2 - 1)) by (rewrite <- Z.pow_succ_r by lia; apply Z.pow_le_mono_r; lia).
        apply Z.lt_le_trans with (2 * 2 ^ f * 2 ^ (n1 - 1)); [apply Z.mul_lt_mono_pos_r; lia|].
        apply Z.le_trans with (2 ^ f * 2 ^ (n2 - 1)); [|apply Z.mul_le_mono_nonneg_r; lia].
        replace (2 * 2 ^ f * 2 ^ (n1 - 1)) with (2 ^ f * (2 * 2 ^ (n1 - 1))) by ring. apply Z.mul_le_mono_nonneg_l; lia.
  Qed.
  Lemma magnitude_zero n m : parts e f n m -> (magnitude n m = 0 <-> n * 2 ^ f + m = 0).
  Proof.
    intros [Hn Hm]. unfold magnitude. destruct (n =? 0) eqn:E; [nia|]. assert (P : 0 < 2 ^ (n - 1)) by (apply Z.pow_pos_nonneg; lia). nia.
  Qed.

  Lemma float_value_eq s n m : float_value f s n m = if s then - magnitude n m else magnitude n m.
  Proof. unfold float_value, magnitude. destruct s; lia. Qed.

  Lemma low_range n m : parts e f n m -> 0 <= n * 2 ^ f + m < 2 ^ (e + f).
  Proof. intros [Hn Hm]. rewrite pow_split. nia. Qed.
  Lemma key_bits s n m : parts e f n m -> ordered_key e f (float_bits e f s n m) = if s then - (n * 2 ^ f + m) else n * 2 ^ f + m.
  Proof.
    intros H. apply low_range in H. unfold ordered_key, float_bits. destruct s.
    - replace (2 ^ (e + f) + n * 2 ^ f + m <? 2 ^ (e + f)) with false by lia. lia.
    - replace (0 + n * 2 ^ f + m <? 2 ^ (e + f)) with true by lia. lia.
  Qed.
  Lemma nan_bits s n m : parts e f n m -> (is_nan e f (float_bits e f s n m) = true <-> nan_parts e n m).
  Proof.
    intros H. pose proof (low_range _ _ H) as Hr. destruct H as [Hn Hm]. unfold is_nan, float_bits, nan_parts.
    replace (((if s then 2 ^ (e + f) else 0) + n * 2 ^ f + m) mod 2 ^ (e + f)) with (n * 2 ^ f + m).
    - rewrite Z.ltb_lt. split; [intros K; assert (n = 2 ^ e - 1) by nia; subst n; split; [reflexivity|lia]|intros [-> K]; lia].
    - symmetry. destruct s.
      + rewrite <- (Z.mod_small (n * 2 ^ f + m) (2 ^ (e + f))) by lia. rewrite <- (Z.mod_add (n * 2 ^ f + m) 1) by lia. f_equal. lia.
      + rewrite Z.mod_small by lia. lia.
  Qed.

  Lemma key_value s1 n1 m1 s2 n2 m2 : parts e f n1 m1 -> parts e f n2 m2 ->
    (ordered_key e f (float_bits e f s1 n1 m1) ?= ordered_key e f (float_bits e f s2 n2 m2)) = (float_value f s1 n1 m1 ?= float_value f s2 n2 m2).
  Proof.
    intros H1 H2. rewrite !key_bits, !float_value_eq by assumption.
    pose proof (magnitude_nonneg _ _ H1) as P1. pose proof (magnitude_nonneg _ _ H2) as P2.
    pose proof (magnitude_zero _ _ H1) as Z1. pose proof (magnitude_zero _ _ H2) as Z2.
    pose proof (magnitude_lt _ _ _ _ H1 H2) as L1. pose proof (magnitude_lt _ _ _ _ H2 H1) as L2.
    assert (E : n1 * 2 ^ f + m1 = n2 * 2 ^ f + m2 -> magnitude n1 m1 = magnitude n2 m2).
    { intros E. assert (n1 = n2) by (destruct H1, H2; nia). subst. assert (m1 = m2) by lia. subst. reflexivity. }
    apply low_range in H1. apply low_range in H2.
    set (k1 := n1 * 2 ^ f + m1) in *. set (k2 := n2 * 2 ^ f + m2) in *. clearbody k1 k2.
    set (v1 := magnitude n1 m1) in *. set (v2 := magnitude n2 m2) in *. clearbody v1 v2.
    destruct (Z.lt_trichotomy k1 k2) as [K|[K|K]].
    - specialize (L1 K). destruct s1, s2; cmp_cases.
    - specialize (E K). destruct s1, s2; cmp_cases.
    - specialize (L2 K). destruct s1, s2; cmp_cases.
  Qed.

  Lemma means_compare op x y x' y' : (x ?= y) = (x' ?= y') -> (means op x y <-> means op x' y').
  Proof. intros H. destruct (Z.compare_spec x y), (Z.compare_spec x' y'); try discriminate; destruct op; cbn [means]; lia. Qed.

  Lemma float_compare_values op s1 n1 m1 s2 n2 m2 : parts e f n1 m1 -> parts e f n2 m2 -> ~ nan_parts e n1 m1 -> ~ nan_parts e n2 m2 ->
    float_compare e f op (float_bits e f s1 n1 m1) (float_bits e f s2 n2 m2) = true <-> means op (float_value f s1 n1 m1) (float_value f s2 n2 m2).
  Proof.
    intros H1 H2 N1 N2. unfold float_compare. rewrite <- (nan_bits s1) in N1 by assumption. rewrite <- (nan_bits s2) in N2 by assumption.
    destruct (is_nan e f (float_bits e f s1 n1 m1)); [congruence|]. destruct (is_nan e f (float_bits e f s2 n2 m2)); [congruence|].
    cbn [orb]. rewrite same_type_means. apply means_compare. apply key_value; assumption.
  Qed.
  Lemma float_compare_nan op s1 n1 m1 s2 n2 m2 : parts e f n1 m1 -> parts e f n2 m2 -> nan_parts e n1 m1 \/ nan_parts e n2 m2 ->
    float_compare e f op (float_bits e f s1 n1 m1) (float_bits e f s2 n2 m2) = true <-> op = CNe.
  Proof.
    intros H1 H2 H. unfold float_compare. rewrite <- (nan_bits s1 n1) in H by assumption. rewrite <- (nan_bits s2 n2) in H by assumption.
    replace (is_nan e f _ || is_nan e f _) with true by (destruct H as [-> | ->]; [reflexivity|symmetry; apply orb_true_r]).
    destruct op; split; congruence.
  Qed.
End Float.

Lemma compare_floats sc e f op s1 n1 m1 s2 n2 m2 : float_format sc e f -> parts e f n1 m1 -> parts e f n2 m2 -> ~ nan_parts e n1 m1 -> ~ nan_parts e n2 m2 ->
  exists r, field_compare op sc (float_bits e f s1 n1 m1) sc (float_bits e f s2 n2 m2) = Some r
    /\ (r = true <-> means op (float_value f s1 n1 m1) (float_value f s2 n2 m2)).
Proof.
  intros H H1 H2 N1 N2. assert (1 < e /\ 1 < f) as [He Hf] by (destruct H as [(_ & -> & ->)|(_ & -> & ->)]; lia).
  exists (float_compare e f op (float_bits e f s1 n1 m1) (float_bits e f s2 n2 m2)). split; [|apply float_compare_values; assumption].
  destruct H as [(-> & -> & ->)|(-> & -> & ->)]; reflexivity.
Qed.
Lemma compare_nans sc e f op s1 n1 m1 s2 n2 m2 : float_format sc e f -> parts e f n1 m1 -> parts e f n2 m2 -> nan_parts e n1 m1 \/ nan_parts e n2 m2 ->
  exists r, field_compare op sc (float_bits e f s1 n1 m1) sc (float_bits e f s2 n2 m2) = Some r /\ (r = true <-> op = CNe).
Proof.
  intros H H1 H2 N. assert (1 < e /\ 1 < f) as [He Hf] by (destruct H as [(_ & -> & ->)|(_ & -> & ->)]; lia).
  exists (float_compare e f op (float_bits e f s1 n1 m1) (float_bits e f s2 n2 m2)). split; [|apply float_compare_nan; assumption].
  destruct H as [(-> & -> & ->)|(-> & -> & ->)]; reflexivity.
Qed.
(** Every pattern of bits has parts. *)
Lemma bits_parts sc e f b : float_format sc e f -> scalar_range sc b -> exists s n m, parts e f n m /\ b = float_bits e f s n m.
Proof.
  intros H Hb. unfold parts, float_bits. destruct H as [(-> & -> & ->)|(-> & -> & ->)]; cbn [scalar_range] in Hb.
  - exists (2 ^ 31 <=? b), (b / 2 ^ 23 mod 2 ^ 8), (b mod 2 ^ 23). change (8 + 23) with 31. destruct (2 ^ 31 <=? b) eqn:E; lia.
  - exists (2 ^ 63 <=? b), (b / 2 ^ 52 mod 2 ^ 11), (b mod 2 ^ 52). change (11 + 52) with 63. destruct (2 ^ 63 <=? b) eqn:E; lia.
Qed.
