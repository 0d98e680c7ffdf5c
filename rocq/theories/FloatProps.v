(** * FloatProps: comparing float and double with each other and with integers. *)
From Verif Require Import Base Schema Spec Compare SpecCompare CompareProps.
From Coq Require Import ZArith Bool Lia ZifyBool.
Ltac Zify.zify_post_hook ::= idtac.

Lemma pow_pos n : 0 <= n -> 0 < 2 ^ n.
Proof. intros. apply Z.pow_pos_nonneg; lia. Qed.

(** ** One format *)
Section Format.
  Variables e f : Z.
  Hypotheses (He : 7 < e) (Hf : 1 < f) (Hu : 2 ^ (e - 1) - 2 + f <= 1074).

  Let He1 : 1 < e.
  Proof. lia. Qed.
  Let scale : Z := 1074 - (2 ^ (e - 1) - 2 + f).
  Lemma scale_pos : 0 < 2 ^ scale.
  Proof. apply pow_pos. unfold scale. lia. Qed.

  (** The largest finite numbers are smaller than infinity. *)
  Lemma infinite_value s : float_value f s (2 ^ e - 1) 0 = if s then - magnitude f (2 ^ e - 1) 0 else magnitude f (2 ^ e - 1) 0.
  Proof. apply float_value_eq. Qed.
  Lemma parts_infinite : parts e f (2 ^ e - 1) 0.
  Proof. pose proof (pow_pos e). pose proof (pow_pos f). split; lia. Qed.
  Lemma finite_below n m : parts e f n m -> n <> 2 ^ e - 1 -> magnitude f n m < magnitude f (2 ^ e - 1) 0.
  Proof.
    intros H Hn. apply (magnitude_lt e f); [exact He1|exact Hf|exact H|apply parts_infinite|]. destruct H as [H1 H2].
    assert (n * 2 ^ f + 2 ^ f <= (2 ^ e - 1) * 2 ^ f); [|lia].
    replace (n * 2 ^ f + 2 ^ f) with ((n + 1) * 2 ^ f) by ring. apply Z.mul_le_mono_nonneg_r; lia.
  Qed.

  Lemma holds_values op s1 n1 m1 s2 n2 m2 : parts e f n1 m1 -> parts e f n2 m2 -> ~ nan_parts e n1 m1 -> ~ nan_parts e n2 m2 ->
    (means op (float_value f s1 n1 m1) (float_value f s2 n2 m2) <-> holds op (worth e f s1 n1 m1) (worth e f s2 n2 m2)).
  Proof.
    intros H1 H2 N1 N2. unfold worth. fold scale. pose proof scale_pos as Hs.
    pose proof (magnitude_nonneg e f He1 Hf n1 m1 H1) as P1. pose proof (magnitude_nonneg e f He1 Hf n2 m2 H2) as P2.
    destruct (n1 =? 2 ^ e - 1) eqn:E1, (n2 =? 2 ^ e - 1) eqn:E2.
    - assert (n1 = 2 ^ e - 1) by lia. assert (n2 = 2 ^ e - 1) by lia. subst n1 n2.
      assert (m1 = 0) by (destruct (Z.eq_dec m1 0); [assumption|exfalso; apply N1; split; auto]).
      assert (m2 = 0) by (destruct (Z.eq_dec m2 0); [assumption|exfalso; apply N2; split; auto]). subst m1 m2.
      rewrite !infinite_value. assert (0 < magnitude f (2 ^ e - 1) 0).
      { apply Z.le_lt_trans with (magnitude f 0 0); [reflexivity|]. apply finite_below; [|pose proof (pow_pos e); pose proof (Z.pow_lt_mono_r 2 1 e); lia].
        pose proof (pow_pos e). pose proof (pow_pos f). split; lia. }
      destruct op, s1, s2; cbn [means holds less]; split; intros; try congruence; try lia; try (intuition congruence); exfalso; intuition (congruence || lia).
    - assert (n1 = 2 ^ e - 1) by lia. subst n1. assert (m1 = 0) by (destruct (Z.eq_dec m1 0); [assumption|exfalso; apply N1; split; auto]). subst m1.
      pose proof (finite_below n2 m2 H2 ltac:(lia)) as Hb. rewrite infinite_value, float_value_eq.
      destruct op, s1, s2; cbn [means holds less]; split; intros; try congruence; try lia; try (intuition congruence); exfalso; intuition (congruence || lia).
    - assert (n2 = 2 ^ e - 1) by lia. subst n2. assert (m2 = 0) by (destruct (Z.eq_dec m2 0); [assumption|exfalso; apply N2; split; auto]). subst m2.
      pose proof (finite_below n1 m1 H1 ltac:(lia)) as Hb. rewrite infinite_value, float_value_eq.
      destruct op, s1, s2; cbn [means holds less]; split; intros; try congruence; try lia; try (intuition congruence); exfalso; intuition (congruence || lia).
    - set (x := float_value f s1 n1 m1). set (y := float_value f s2 n2 m2). clearbody x y.
      assert (L : forall u v, u < v <-> u * 2 ^ scale < v * 2 ^ scale) by (intros; apply Z.mul_lt_mono_pos_r; exact Hs).
      assert (Q : x = y <-> Finite (x * 2 ^ scale) = Finite (y * 2 ^ scale)).
      { split; [intros ->; reflexivity|]. intros K. injection K as K. apply Z.mul_reg_r in K; lia. }
      destruct op; cbn [means holds less]; rewrite <- ?L, <- ?Q; lia.
  Qed.

  Lemma float_compare_holds op s1 n1 m1 s2 n2 m2 : parts e f n1 m1 -> parts e f n2 m2 -> ~ nan_parts e n1 m1 -> ~ nan_parts e n2 m2 ->
    (float_compare e f op (float_bits e f s1 n1 m1) (float_bits e f s2 n2 m2) = true <-> holds op (worth e f s1 n1 m1) (worth e f s2 n2 m2)).
  Proof. intros. rewrite float_compare_values by (try assumption; lia). apply holds_values; assumption. Qed.

  (** *** Rounding *)
  (** The magnitude of a pattern of bits without sign. *)
  Definition mag (k : Z) : Z := magnitude f (k / 2 ^ f) (k mod 2 ^ f).
  Lemma key_parts k : 0 <= k < 2 ^ (e + f) -> parts e f (k / 2 ^ f) (k mod 2 ^ f).
  Proof.
    intros H. pose proof (pow_pos f). rewrite Z.pow_add_r in H by lia. split; [|apply Z.mod_pos_bound; lia].
    split; [apply Z.div_pos; lia|]. apply Z.div_lt_upper_bound; lia.
  Qed.
  Lemma mag_parts n m : parts e f n m -> mag (n * 2 ^ f + m) = magnitude f n m.
  Proof.
    intros [Hn Hm]. unfold mag. pose proof (pow_pos f). rewrite Z.div_add_l by lia. rewrite (Z.div_small m) by lia.
    rewrite (Z.add_comm (n * 2 ^ f)), Z.mod_add, Z.mod_small by lia. f_equal. lia.
  Qed.
  Lemma mag_lt k1 k2 : 0 <= k1 < k2 -> k2 < 2 ^ (e + f) -> mag k1 < mag k2.
  Proof.
    intros H H2. unfold mag. apply (magnitude_lt e f); [exact He1|exact Hf|apply key_parts; lia|apply key_parts; lia|].
    pose proof (pow_pos f). pose proof (Z.div_mod k1 (2 ^ f)). pose proof (Z.div_mod k2 (2 ^ f)). lia.
  Qed.
  Lemma mag_lead N q : 0 <= N -> 2 ^ f <= q <= 2 ^ (f + 1) -> mag (N * 2 ^ f + q) = q * 2 ^ N.
  Proof.
    intros HN Hq. pose proof (pow_pos f ltac:(lia)) as P. rewrite Z.pow_add_r in Hq by lia. change (2 ^ 1) with 2 in Hq. unfold mag, magnitude.
    destruct (Z.eq_dec q (2 ^ f * 2)) as [->|Hne].
    - replace (N * 2 ^ f + 2 ^ f * 2) with ((N + 2) * 2 ^ f) by ring. rewrite Z.div_mul, Z.mod_mul by lia.
      replace (N + 2 =? 0) with false by lia. replace (N + 2 - 1) with (N + 1) by lia. rewrite Z.pow_add_r by lia. change (2 ^ 1) with 2. ring.
    - replace (N * 2 ^ f + q) with ((N + 1) * 2 ^ f + (q - 2 ^ f)) by ring. rewrite Z.div_add_l by lia. rewrite (Z.div_small (q - 2 ^ f)) by lia.
      rewrite (Z.add_comm ((N + 1) * 2 ^ f)), Z.mod_add, Z.mod_small by lia.
      replace (N + 1 + 0 =? 0) with false by lia. replace (N + 1 + 0 - 1) with N by lia. f_equal. lia.
  Qed.

  Let unit : Z := 2 ^ (e - 1) - 2 + f.
  (** The bits of a rounded non-negative integer. *)
  Definition round_key (a : Z) : Z := if a =? 0 then 0 else (Z.log2 a + 2 ^ (e - 1) - 2) * 2 ^ f + leading f a.

  Lemma leading_range a : 0 < a -> 2 ^ f <= leading f a <= 2 ^ (f + 1).
  Proof.
    intros Ha. pose proof (Z.log2_spec a Ha) as [L1 L2]. pose proof (Z.log2_nonneg a) as L0. unfold leading. rewrite <- Z.add_1_r in L2. rewrite Z.pow_add_r in * by lia. change (2 ^ 1) with 2 in *.
    destruct (Z.log2 a <=? f) eqn:E.
    - assert (P : 0 < 2 ^ (f - Z.log2 a)) by (apply pow_pos; lia).
      assert (Q : 2 ^ f = 2 ^ Z.log2 a * 2 ^ (f - Z.log2 a)) by (rewrite <- Z.pow_add_r by lia; f_equal; lia). nia.
    - assert (P : 0 < 2 ^ (Z.log2 a - f)) by (apply pow_pos; lia).
      assert (Q : 2 ^ Z.log2 a = 2 ^ f * 2 ^ (Z.log2 a - f)) by (rewrite <- Z.pow_add_r by lia; f_equal; lia).
      set (w := 2 ^ (Z.log2 a - f)) in *. clearbody w. pose proof (Z.div_mod a w ltac:(lia)). pose proof (Z.mod_pos_bound a w P).
      assert (2 ^ f <= a / w < 2 ^ f * 2) by nia. destruct (_ || _); lia.
  Qed.
  Lemma bias_large : 128 <= 2 ^ (e - 1) /\ 2 ^ e = 2 * 2 ^ (e - 1).
  Proof.
    split; [apply (Z.pow_le_mono_r 2 7); lia|]. rewrite <- Z.pow_succ_r by lia. f_equal. lia.
  Qed.
  Lemma round_key_range a : 0 <= a < 2 ^ 64 -> 0 <= round_key a /\ round_key a < (2 ^ e - 1) * 2 ^ f.
  Proof.
    intros Ha. pose proof bias_large as [B1 B2]. pose proof (pow_pos f ltac:(lia)) as P. unfold round_key. destruct (a =? 0) eqn:E; [nia|].
    pose proof (leading_range a ltac:(lia)) as [L1 L2]. rewrite Z.pow_add_r in L2 by lia. change (2 ^ 1) with 2 in L2.
    assert (Z.log2 a < 64) by (apply Z.log2_lt_pow2; lia). pose proof (Z.log2_nonneg a). nia.
  Qed.
  Lemma mag_le k1 k2 : 0 <= k1 <= k2 -> k2 < 2 ^ (e + f) -> mag k1 <= mag k2.
  Proof. intros H H2. destruct (Z.eq_dec k1 k2) as [->|]; [lia|]. pose proof (mag_lt k1 k2). lia. Qed.
  Lemma mag_0 : mag 0 = 0.
  Proof. unfold mag, magnitude. rewrite Z.div_0_l, Z.mod_0_l by (pose proof (pow_pos f); lia). reflexivity. Qed.
  Lemma below_all k : k < (2 ^ e - 1) * 2 ^ f -> k < 2 ^ (e + f).
  Proof. intros H. rewrite Z.pow_add_r by lia. pose proof (pow_pos f). nia. Qed.

  (** Either the integer is one of the numbers, or the result is one of two neighbours around it. *)
  Lemma round_cases a : 0 <= a < 2 ^ 64 ->
    mag (round_key a) = a * 2 ^ unit /\ representable f a
    \/ exists k w q r, 0 <= k /\ k + 1 < 2 ^ (e + f) /\ 0 < w /\ 0 <= r < w /\ a = q * w + r
         /\ mag k = q * w * 2 ^ unit /\ mag (k + 1) = (q + 1) * w * 2 ^ unit /\ Z.even k = Z.even q
         /\ (round_key a = k /\ (2 * r < w \/ 2 * r = w /\ Z.even q = true) \/ round_key a = k + 1 /\ (w < 2 * r \/ 2 * r = w /\ Z.even q = false))
         /\ (exists j, 0 <= j /\ w = 2 ^ j) /\ 2 ^ f <= q < 2 ^ (f + 1).
  Proof.
    intros Ha. pose proof bias_large as [B1 B2]. pose proof (pow_pos f ltac:(lia)) as P. destruct (a =? 0) eqn:E0.
    { left. assert (a = 0) by lia. subst a. unfold round_key. cbn [Z.eqb]. rewrite mag_0. split; [lia|]. exists 0, 0. pose proof (pow_pos (f + 1)). cbn; lia. }
    pose proof (leading_range a ltac:(lia)) as LR. pose proof (Z.log2_spec a ltac:(lia)) as [L1 L2]. pose proof (Z.log2_nonneg a) as L0.
    assert (L64 : Z.log2 a < 64) by (apply Z.log2_lt_pow2; lia).
    pose proof (round_key_range a Ha) as KR. unfold round_key in *. rewrite E0 in *. unfold leading in *. rewrite <- Z.add_1_r in L2. set (l := Z.log2 a) in *. clearbody l.
    destruct (l <=? f) eqn:E.
    - left. split.
      + rewrite mag_lead by lia. rewrite <- Z.mul_assoc, <- Z.pow_add_r by lia. f_equal. f_equal. unfold unit. lia.
      + exists a, 0. split; [lia|]. split; [ring|]. assert (2 ^ (l + 1) <= 2 ^ (f + 1)) by (apply Z.pow_le_mono_r; lia). lia.
    - right. assert (Pw : 0 < 2 ^ (l - f)) by (apply pow_pos; lia).
      assert (Q : 2 ^ l = 2 ^ f * 2 ^ (l - f)) by (rewrite <- Z.pow_add_r by lia; f_equal; lia).
      assert (Q' : 2 ^ (l + 1) = 2 ^ (f + 1) * 2 ^ (l - f)) by (rewrite <- Z.pow_add_r by lia; f_equal; lia).
      assert (HN : 2 ^ (l + 2 ^ (e - 1) - 2) = 2 ^ (l - f) * 2 ^ unit) by (rewrite <- Z.pow_add_r by (unfold unit; lia); f_equal; unfold unit; lia).
      assert (Hj : exists j, 0 <= j /\ 2 ^ (l - f) = 2 ^ j) by (exists (l - f); split; [lia|reflexivity]).
      set (w := 2 ^ (l - f)) in *. clearbody w. pose proof (Z.div_mod a w ltac:(lia)) as D. pose proof (Z.mod_pos_bound a w Pw) as R.
      assert (Hq : 2 ^ f <= a / w < 2 ^ (f + 1)) by nia.
      exists ((l + 2 ^ (e - 1) - 2) * 2 ^ f + a / w), w, (a / w), (a mod w).
      split; [nia|]. split.
      { apply below_all. assert (l + 2 ^ (e - 1) - 2 + 2 <= 2 ^ e - 2) by lia. rewrite Z.pow_add_r in Hq by lia. change (2 ^ 1) with 2 in Hq. nia. }
      split; [exact Pw|]. split; [exact R|]. split; [lia|]. split; [rewrite mag_lead by lia; rewrite HN; ring|].
      split; [rewrite <- Z.add_assoc, mag_lead by lia; rewrite HN; ring|]. split.
      { rewrite Z.even_add, Z.even_mul. replace (Z.even (2 ^ f)) with true; [rewrite orb_true_r; destruct (Z.even (a / w)); reflexivity|].
        symmetry. rewrite Z.even_pow by lia. reflexivity. }
      split; [|split; [exact Hj|exact Hq]].
      rewrite <- Z.negb_even. match goal with |- context [if ?c then _ else _] => destruct c eqn:Ec end; [right; split; [ring|]|left; split; [ring|]]; destruct (Z.even (a / w)); cbn [negb] in Ec; lia.
  Qed.

  Lemma power_odd_part q k f0 : 0 <= k -> 0 <= f0 -> 0 <= q <= 2 ^ (f0 + 1) -> forall j, 0 <= j -> 2 ^ f0 * 2 ^ j <= q * 2 ^ k -> (q * 2 ^ k) mod 2 ^ j = 0.
  Proof.
    intros Hk H0 Hq j Hj H. assert (J : j <= k \/ k = j - 1 /\ q = 2 ^ (f0 + 1)).
    { destruct (Z_le_gt_dec j k) as [|G]; [left; assumption|right]. assert (E : 2 ^ j = 2 ^ (j - 1 - k) * 2 * 2 ^ k).
      { rewrite <- Z.mul_assoc, <- Z.pow_succ_r by lia. rewrite <- Z.pow_add_r by lia. f_equal. lia. }
      rewrite E in H. rewrite Z.pow_add_r in Hq by lia. change (2 ^ 1) with 2 in Hq. pose proof (pow_pos k Hk). pose proof (pow_pos f0 H0). pose proof (pow_pos (j - 1 - k) ltac:(lia)) as P1.
      assert (2 ^ f0 * (2 ^ (j - 1 - k) * 2) <= q) by (apply (Z.mul_le_mono_pos_r _ _ (2 ^ k)); [lia|]; nia).
      assert (2 ^ (j - 1 - k) <= 1) by nia. assert (j - 1 - k = 0).
      { destruct (Z.eq_dec (j - 1 - k) 0); [assumption|]. pose proof (Z.pow_le_mono_r 2 1 (j - 1 - k)). change (2 ^ 1) with 2 in *. lia. }
      split; [lia|]. rewrite Z.pow_add_r by lia. change (2 ^ 1) with 2. replace (j - 1 - k) with 0 in * by lia. change (2 ^ 0) with 1 in *. lia. }
    destruct J as [J|[-> ->]].
    - replace k with ((k - j) + j) by lia. rewrite Z.pow_add_r by lia. rewrite Z.mul_assoc. apply Z.mod_mul. pose proof (pow_pos j). lia.
    - rewrite <- Z.pow_add_r by lia. replace (f0 + 1 + (j - 1)) with (f0 + j) by lia. rewrite Z.pow_add_r by lia. apply Z.mod_mul. pose proof (pow_pos j). lia.
  Qed.

  Lemma round_exact a : 0 <= a < 2 ^ 64 -> representable f a -> mag (round_key a) = a * 2 ^ unit.
  Proof.
    intros Ha (q0 & k0 & Hk0 & E & Hq0). destruct (round_cases a Ha) as [[K _]|(k & w & q & r & H1 & H2 & H3 & H4 & H5 & H6 & H7 & H8 & H9 & (j & Hj & ->) & H11)]; [exact K|].
    assert (R0 : (q0 * 2 ^ k0) mod 2 ^ j = 0).
    { pose proof (pow_pos k0 Hk0). assert (0 <= q0) by nia. apply power_odd_part with (f0 := f); [exact Hk0|lia|lia|exact Hj|]. rewrite <- E, H5. nia. }
    assert (r = 0). { rewrite <- E, H5, Z.add_comm, Z.mod_add, Z.mod_small in R0 by lia. exact R0. }
    destruct H9 as [[-> _]|[_ G]]; [|lia]. rewrite H6, H5. replace r with 0 by lia. f_equal. lia.
  Qed.
  Lemma round_representable a : 0 <= a < 2 ^ 64 -> exists b, representable f b /\ mag (round_key a) = b * 2 ^ unit.
  Proof.
    intros Ha. destruct (round_cases a Ha) as [[K R]|(k & w & q & r & H1 & H2 & H3 & H4 & H5 & H6 & H7 & H8 & H9 & (j & Hj & ->) & H11)]; [exists a; auto|].
    assert (0 <= 2 ^ f) by (apply Z.pow_nonneg; lia).
    destruct H9 as [[-> _]|[-> _]]; [exists (q * 2 ^ j)|exists ((q + 1) * 2 ^ j)]; (split; [|assumption]); eexists _, j; (split; [exact Hj|]); (split; [reflexivity|]); lia.
  Qed.

  (** Comparing any number with the rounded one. *)
  Lemma round_spec a : 0 <= a < 2 ^ 64 -> forall k, 0 <= k < 2 ^ (e + f) ->
    (a * 2 ^ unit <= mag k -> mag (round_key a) <= mag k) /\ (mag k <= a * 2 ^ unit -> mag k <= mag (round_key a))
    /\ Z.abs (mag (round_key a) - a * 2 ^ unit) <= Z.abs (mag k - a * 2 ^ unit)
    /\ (mag k <> mag (round_key a) -> Z.abs (mag (round_key a) - a * 2 ^ unit) = Z.abs (mag k - a * 2 ^ unit) -> Z.even (round_key a) = true).
  Proof.
    intros Ha k0 Hk0. destruct (round_cases a Ha) as [[K R]|(k & w & q & r & H1 & H2 & H3 & H4 & H5 & H6 & H7 & H8 & H9 & _)].
    - rewrite K. repeat split; intros; lia.
    - assert (P : 0 < 2 ^ unit) by (apply pow_pos; pose proof bias_large; unfold unit; lia). set (p := 2 ^ unit) in *. clearbody p.
      assert (C : mag k0 <= mag k \/ mag (k + 1) <= mag k0).
      { destruct (Z_le_gt_dec k0 k); [left; apply mag_le; lia|right; apply mag_le; lia]. }
      assert (T : forall c, (2 * r < w -> 2 * (r * p) < w * p) /\ (2 * r = w -> 2 * (r * p) = w * p) /\ (w < 2 * r -> w * p < 2 * (r * p)) /\ 0 <= r * p < w * p /\ c = c :> Z).
      { intros c. repeat split; try nia. }
      destruct (T 0) as (T1 & T2 & T3 & T4 & _). clear T. rewrite H6, H7 in *.
      assert (EA : a * p = q * w * p + r * p) by (rewrite H5; ring). rewrite EA in *.
      assert (EM : (q + 1) * w * p = q * w * p + w * p) by ring. rewrite EM in *. set (A := q * w * p) in *. set (rp := r * p) in *. set (wp := w * p) in *. set (v := mag k0) in *.
      clearbody A rp wp v. clear EA EM.
      destruct H9 as [[E G]|[E G]]; rewrite E, ?H6, ?H7.
      + repeat split; intros; try lia. rewrite H8. destruct G as [G|[_ G]]; [exfalso; lia|exact G].
      + repeat split; intros; try lia. rewrite Z.even_add, H8. destruct G as [G|[_ G]]; [exfalso; lia|rewrite G; reflexivity].
  Qed.

  Lemma from_integer_bits z : Z.abs z < 2 ^ 64 ->
    exists n m, parts e f n m /\ n <> 2 ^ e - 1 /\ n * 2 ^ f + m = round_key (Z.abs z) /\ from_integer e f z = float_bits e f (z <? 0) n m.
  Proof.
    intros Hz. pose proof (round_key_range (Z.abs z) ltac:(lia)) as [K1 K2]. pose proof (pow_pos f ltac:(lia)) as P.
    exists (round_key (Z.abs z) / 2 ^ f), (round_key (Z.abs z) mod 2 ^ f). pose proof (Z.div_mod (round_key (Z.abs z)) (2 ^ f) ltac:(lia)) as D.
    split; [apply key_parts; split; [lia|apply below_all; lia]|].
    split; [assert (round_key (Z.abs z) / 2 ^ f < 2 ^ e - 1) by (apply Z.div_lt_upper_bound; lia); lia|].
    split; [lia|]. unfold from_integer, float_bits. fold (round_key (Z.abs z)). lia.
  Qed.

  (** The value of the converted integer. *)
  Definition rounded (z : Z) : Z := if z <? 0 then - mag (round_key (Z.abs z)) else mag (round_key (Z.abs z)).
  Lemma rounded_value z n m : parts e f n m -> n * 2 ^ f + m = round_key (Z.abs z) -> float_value f (z <? 0) n m = rounded z.
  Proof. intros H E. rewrite float_value_eq. unfold rounded. rewrite <- E, mag_parts by assumption. reflexivity. Qed.

  Lemma value_mag s n m : parts e f n m -> exists k, 0 <= k < 2 ^ (e + f) /\ float_value f s n m = if s then - mag k else mag k.
  Proof.
    intros H. exists (n * 2 ^ f + m). split; [apply low_range; assumption|]. rewrite float_value_eq, mag_parts by assumption. reflexivity.
  Qed.
  Lemma mag_nonneg k : 0 <= k < 2 ^ (e + f) -> 0 <= mag k.
  Proof. intros H. rewrite <- mag_0. apply mag_le; lia. Qed.

  Lemma rounded_spec z s n m : Z.abs z < 2 ^ 64 -> parts e f n m ->
    (z * 2 ^ unit <= float_value f s n m -> rounded z <= float_value f s n m)
    /\ (float_value f s n m <= z * 2 ^ unit -> float_value f s n m <= rounded z)
    /\ Z.abs (rounded z - z * 2 ^ unit) <= Z.abs (float_value f s n m - z * 2 ^ unit)
    /\ (float_value f s n m <> rounded z -> Z.abs (rounded z - z * 2 ^ unit) = Z.abs (float_value f s n m - z * 2 ^ unit) -> Z.even (round_key (Z.abs z)) = true).
  Proof.
    intros Hz H. destruct (value_mag s n m H) as (k & Hk & ->). pose proof (round_spec (Z.abs z) ltac:(lia) k Hk) as S.
    pose proof (round_spec (Z.abs z) ltac:(lia) 0 ltac:(lia)) as S0. rewrite mag_0 in S0. pose proof (mag_nonneg k Hk) as Pk.
    assert (Pr : 0 <= mag (round_key (Z.abs z))). { pose proof (round_key_range (Z.abs z) ltac:(lia)). apply mag_nonneg. split; [lia|apply below_all; lia]. }
    assert (P : 0 < 2 ^ unit) by (apply pow_pos; pose proof bias_large; unfold unit; lia).
    assert (EA : Z.abs z * 2 ^ unit = Z.abs (z * 2 ^ unit)) by (rewrite Z.abs_mul, (Z.abs_eq (2 ^ unit)) by lia; reflexivity). rewrite EA in *.
    assert (SG : (z < 0 -> z * 2 ^ unit < 0) /\ (0 <= z -> 0 <= z * 2 ^ unit)) by nia. unfold rounded.
    set (A := z * 2 ^ unit) in *. set (v := mag k) in *. set (R := mag (round_key (Z.abs z))) in *. set (ev := Z.even (round_key (Z.abs z))) in *. clearbody A v R ev. clear EA P Hk H.
    destruct (z <? 0) eqn:Ez, s; repeat split; intros; try lia.
    all: destruct S as (S1 & S2 & S3 & S4), S0 as (T1 & T2 & T3 & T4); try lia; try (apply S4; lia); try (apply T4; lia).
  Qed.
  Lemma rounded_exact z : Z.abs z < 2 ^ 64 -> representable f z -> rounded z = z * 2 ^ unit.
  Proof.
    intros Hz (q & k & Hk & E & Hq). assert (R : representable f (Z.abs z)).
    { exists (Z.abs q), k. split; [exact Hk|]. split; [rewrite E, Z.abs_mul, (Z.abs_eq (2 ^ k)) by (apply Z.pow_nonneg; lia); reflexivity|lia]. }
    unfold rounded. rewrite round_exact by (assumption || lia). destruct (z <? 0) eqn:Ez; [rewrite Z.abs_neq by lia; ring|rewrite Z.abs_eq by lia; ring].
  Qed.
  Lemma rounded_representable z : Z.abs z < 2 ^ 64 -> rounded z = z * 2 ^ unit -> representable f z.
  Proof.
    intros Hz E. destruct (round_representable (Z.abs z) ltac:(lia)) as (b & (q & k & Hk & Eb & Hq) & Em). unfold rounded in E. rewrite Em in E.
    assert (P : 0 < 2 ^ unit) by (apply pow_pos; pose proof bias_large; unfold unit; lia). destruct (z <? 0).
    - exists (- q), k. split; [exact Hk|]. split; [|lia]. assert (- b = z) by (apply (Z.mul_reg_r _ _ (2 ^ unit)); lia). lia.
    - exists q, k. split; [exact Hk|]. split; [|lia]. assert (b = z) by (apply (Z.mul_reg_r _ _ (2 ^ unit)); lia). lia.
  Qed.
  Lemma unit_scale z : z * 2 ^ 1074 = z * 2 ^ unit * 2 ^ scale.
  Proof. rewrite <- Z.mul_assoc, <- Z.pow_add_r by (pose proof bias_large; unfold unit, scale; lia). f_equal. f_equal. unfold unit, scale. lia. Qed.
  Lemma worth_scaled z : integer z = Finite (z * 2 ^ unit * 2 ^ scale).
  Proof. unfold integer. rewrite unit_scale. reflexivity. Qed.
  Lemma worth_finite s n m : n <> 2 ^ e - 1 -> worth e f s n m = Finite (float_value f s n m * 2 ^ scale).
  Proof. intros H. unfold worth. replace (n =? 2 ^ e - 1) with false by lia. reflexivity. Qed.

  (** The converted integer as a number of the format. *)
  Lemma from_integer_worth z : Z.abs z < 2 ^ 64 ->
    exists s n m, parts e f n m /\ ~ nan_parts e n m /\ from_integer e f z = float_bits e f s n m /\ worth e f s n m = Finite (rounded z * 2 ^ scale)
      /\ Z.even (from_integer e f z) = Z.even (round_key (Z.abs z)).
  Proof.
    intros Hz. destruct (from_integer_bits z Hz) as (n & m & H & Hn & E & Eb). exists (z <? 0), n, m. split; [exact H|]. split; [intros [K _]; contradiction|].
    split; [exact Eb|]. split; [rewrite worth_finite by exact Hn; rewrite (rounded_value z) by assumption; reflexivity|].
    rewrite Eb. unfold float_bits. rewrite <- Z.add_assoc, E, Z.even_add. replace (Z.even (if z <? 0 then _ else _)) with true; [destruct (Z.even (round_key _)); reflexivity|].
    destruct (z <? 0); [|reflexivity]. symmetry. rewrite Z.even_pow by lia. reflexivity.
  Qed.

  Lemma scaled_le x y : x * 2 ^ scale <= y * 2 ^ scale <-> x <= y.
  Proof. symmetry. apply Z.mul_le_mono_pos_r. apply scale_pos. Qed.

  (** *** An integer compared with a number of the format *)
  Variable z : Z.
  Hypothesis Hz : Z.abs z < 2 ^ 64.

  Lemma integer_exact op s n m : parts e f n m -> ~ nan_parts e n m -> representable f z ->
    (float_compare e f op (from_integer e f z) (float_bits e f s n m) = true <-> holds op (integer z) (worth e f s n m)).
  Proof.
    intros H N R. destruct (from_integer_worth z Hz) as (s' & n' & m' & H' & N' & -> & W & _). rewrite float_compare_holds by assumption.
    rewrite W, rounded_exact, worth_scaled by assumption. reflexivity.
  Qed.
  Lemma integer_sides s n m : parts e f n m -> ~ nan_parts e n m ->
    (holds CLe (integer z) (worth e f s n m) -> float_compare e f CLe (from_integer e f z) (float_bits e f s n m) = true)
    /\ (holds CGe (integer z) (worth e f s n m) -> float_compare e f CGe (from_integer e f z) (float_bits e f s n m) = true).
  Proof.
    intros H N. destruct (from_integer_worth z Hz) as (s' & n' & m' & H' & N' & -> & W & _). rewrite !float_compare_holds by assumption.
    rewrite W, worth_scaled. destruct (rounded_spec z s n m Hz H) as (S1 & S2 & _). unfold worth. destruct (n =? 2 ^ e - 1); [cbn [holds less]; auto|].
    fold scale. cbn [holds less]. rewrite !Z.nlt_ge, !scaled_le. auto.
  Qed.
  Lemma integer_nearest s n m : parts e f n m -> ~ nan_parts e n m ->
    float_compare e f CEq (from_integer e f z) (float_bits e f s n m) = true ->
    exists u, worth e f s n m = Finite u /\ forall s2 n2 m2 t, parts e f n2 m2 -> ~ nan_parts e n2 m2 -> worth e f s2 n2 m2 = Finite t ->
      Z.abs (z * 2 ^ 1074 - u) <= Z.abs (z * 2 ^ 1074 - t)
      /\ (t <> u -> Z.abs (z * 2 ^ 1074 - u) = Z.abs (z * 2 ^ 1074 - t) -> Z.even (from_integer e f z) = true).
  Proof.
    intros H N Heq. destruct (from_integer_worth z Hz) as (s' & n' & m' & H' & N' & Ef & W & Ev). rewrite Ev. rewrite Ef in Heq. rewrite float_compare_holds in Heq by assumption.
    cbn [holds] in Heq. rewrite W in Heq. exists (rounded z * 2 ^ scale). split; [symmetry; exact Heq|]. intros s2 n2 m2 t H2 N2 E2.
    assert (Hn2 : n2 <> 2 ^ e - 1). { intros ->. unfold worth in E2. rewrite Z.eqb_refl in E2. discriminate. }
    rewrite worth_finite in E2 by exact Hn2. injection E2 as <-. rewrite (unit_scale z).
    rewrite <- !Z.mul_sub_distr_r, !Z.abs_mul, (Z.abs_eq (2 ^ scale)) by (pose proof scale_pos; lia).
    destruct (rounded_spec z s2 n2 m2 Hz H2) as (_ & _ & S3 & S4). set (F := float_value f s2 n2 m2) in *. clearbody F.
    split; [apply scaled_le; lia|]. intros Hne Hd. apply S4; [intros ->; apply Hne; reflexivity|]. apply Z.mul_reg_r in Hd; [lia|]. pose proof scale_pos. lia.
  Qed.
  Lemma integer_rounding : ~ representable f z -> exists s n m, parts e f n m /\ ~ nan_parts e n m /\ worth e f s n m <> integer z
    /\ float_compare e f CEq (from_integer e f z) (float_bits e f s n m) = true.
  Proof.
    intros R. destruct (from_integer_worth z Hz) as (s & n & m & H & N & E & W & _). exists s, n, m. split; [exact H|]. split; [exact N|]. split.
    - intros K. apply R. apply rounded_representable; [exact Hz|]. rewrite W, worth_scaled in K. injection K as K. apply Z.mul_reg_r in K; [exact K|]. pose proof scale_pos. lia.
    - rewrite E. apply float_compare_holds; try assumption. reflexivity.
  Qed.
End Format.

(** ** Widening *)
Lemma widen_bits s n m : parts 8 23 n m ->
  exists n' m', parts 11 52 n' m' /\ widen (float_bits 8 23 s n m) = float_bits 11 52 s n' m' /\ (nan_parts 8 n m <-> nan_parts 11 n' m')
    /\ (~ nan_parts 8 n m -> worth 11 52 s n' m' = worth 8 23 s n m).
Proof.
  intros [Hn Hm]. unfold widen, float_bits, nan_parts, worth, float_value. change (8 + 23) with 31. change (11 + 52) with 63.
  set (b := (if s then 2 ^ 31 else 0) + n * 2 ^ 23 + m).
  assert (E1 : b / 2 ^ 23 mod 2 ^ 8 = n).
  { subst b. replace ((if s then 2 ^ 31 else 0) + n * 2 ^ 23 + m) with (((if s then 2 ^ 8 else 0) + n) * 2 ^ 23 + m) by (destruct s; lia).
    rewrite Z.div_add_l, (Z.div_small m), Z.add_0_r by lia. destruct s; [replace (2 ^ 8 + n) with (n + 1 * 2 ^ 8) by lia; rewrite Z.mod_add by lia|rewrite Z.add_0_l]; apply Z.mod_small; lia. }
  assert (E2 : b mod 2 ^ 23 = m).
  { subst b. replace ((if s then 2 ^ 31 else 0) + n * 2 ^ 23 + m) with (m + ((if s then 2 ^ 8 else 0) + n) * 2 ^ 23) by (destruct s; lia).
    rewrite Z.mod_add by lia. apply Z.mod_small. lia. }
  assert (E3 : (if b <? 2 ^ 31 then 0 else 2 ^ 63) = if s then 2 ^ 63 else 0).
  { subst b. destruct s; [replace (_ <? 2 ^ 31) with false by lia|replace (_ <? 2 ^ 31) with true by lia]; reflexivity. }
  rewrite E1, E2, E3. clear b E1 E2 E3. unfold parts.
  change (2 ^ 8 - 1) with 255. change (2 ^ 11 - 1) with 2047. change (1074 - (2 ^ (8 - 1) - 2 + 23)) with 925. change (1074 - (2 ^ (11 - 1) - 2 + 52)) with 0.
  destruct (n =? 255) eqn:N1; [|destruct (n =? 0) eqn:N0; [destruct (m =? 0) eqn:M0|]].
  - exists 2047, (m * 2 ^ 29). repeat split; try lia. 
  - exists 0, 0. repeat split; try lia. intros _. cbn [Z.eqb]. f_equal. replace m with 0 by lia. ring.
  - pose proof (Z.log2_spec m ltac:(lia)) as [L1 L2]. pose proof (Z.log2_nonneg m). assert (Z.log2 m < 23) by (apply Z.log2_lt_pow2; lia).
    rewrite <- Z.add_1_r, Z.pow_add_r in L2 by lia. change (2 ^ 1) with 2 in L2. pose proof (pow_pos (52 - Z.log2 m) ltac:(lia)).
    assert (E : 2 ^ 52 = 2 ^ Z.log2 m * 2 ^ (52 - Z.log2 m)) by (rewrite <- Z.pow_add_r by lia; f_equal; lia).
    assert (E' : m * 2 ^ 925 = m * 2 ^ (52 - Z.log2 m) * 2 ^ (Z.log2 m + 874 - 1)) by (rewrite <- Z.mul_assoc, <- Z.pow_add_r by lia; f_equal; f_equal; lia).
    assert (2 ^ Z.log2 m * 2 ^ (52 - Z.log2 m) <= m * 2 ^ (52 - Z.log2 m)) by (apply Z.mul_le_mono_nonneg_r; lia).
    assert (m * 2 ^ (52 - Z.log2 m) < 2 ^ Z.log2 m * 2 * 2 ^ (52 - Z.log2 m)) by (apply Z.mul_lt_mono_pos_r; lia).
    exists (Z.log2 m + 874), (m * 2 ^ (52 - Z.log2 m) - 2 ^ 52). split; [lia|]. split; [lia|]. split; [lia|]. intros _.
    replace (Z.log2 m + 874 =? 2047) with false by lia. replace (Z.log2 m + 874 =? 0) with false by lia. f_equal. rewrite Z.pow_0_r, Z.mul_1_r, <- Z.mul_assoc, E'. f_equal. f_equal. lia.
  - exists (n + 896), (m * 2 ^ 29). split; [lia|]. split; [lia|]. split; [lia|]. intros _. replace (n + 896 =? 2047) with false by lia. replace (n + 896 =? 0) with false by lia.
    f_equal. rewrite Z.pow_0_r, Z.mul_1_r, <- !Z.mul_assoc. f_equal. replace (2 ^ 52 + m * 2 ^ 29) with ((2 ^ 23 + m) * 2 ^ 29) by lia. rewrite <- Z.mul_assoc. f_equal. rewrite <- !Z.pow_add_r by lia. f_equal. lia.
Qed.

(** ** Fields *)
Lemma format_ok sc e f : float_format sc e f -> 7 < e /\ 1 < f /\ 2 ^ (e - 1) - 2 + f <= 1074.
Proof. intros [(_ & -> & ->)|(_ & -> & ->)]; cbn; lia. Qed.
Lemma format_type sc e f : float_format sc e f -> float_type sc.
Proof. intros [(-> & _)|(-> & _)]; [left|right]; reflexivity. Qed.
Lemma type_format sc : float_type sc -> exists e f, float_format sc e f.
Proof. intros [->| ->]; [exists 8, 23; left|exists 11, 52; right]; auto. Qed.
Lemma format_same sc e f e' f' : float_format sc e f -> float_format sc e' f' -> e' = e /\ f' = f.
Proof. intros [(-> & -> & ->)|(-> & -> & ->)] [(K & -> & ->)|(K & -> & ->)]; try discriminate; auto. Qed.
Lemma integer_not_float sc : integer_type sc -> float_type sc -> False.
Proof. intros H [->| ->]; unfold integer_type, signed_type, unsigned_type in H; cbn [In] in H; intuition discriminate. Qed.
Lemma integer_small sc x : integer_type sc -> scalar_range sc x -> Z.abs x < 2 ^ 64.
Proof. intros H R. destruct sc; cbn [scalar_range] in R; try lia; exfalso; unfold integer_type, signed_type, unsigned_type in H; cbn [In] in H; intuition discriminate. Qed.
Lemma integer_compare op a x b y e f : integer_type a -> float_format b e f -> field_compare op a x b y = Some (float_compare e f op (from_integer e f x) y).
Proof.
  intros Ha [(-> & -> & ->)|(-> & -> & ->)]; destruct a; try reflexivity; exfalso; unfold integer_type, signed_type, unsigned_type in Ha; cbn [In] in Ha; intuition discriminate.
Qed.
Lemma same_compare op a x y e f : float_format a e f -> field_compare op a x a y = Some (float_compare e f op x y).
Proof. intros [(-> & -> & ->)|(-> & -> & ->)]; reflexivity. Qed.

Lemma holds_mirrored op v w : holds (mirrored op) w v <-> holds op v w.
Proof. destruct op; cbn [holds mirrored]; try tauto; split; congruence. Qed.

(** From one order of the operands to the other. *)
Lemma by_mirror (P : scalar -> Z -> scalar -> Z -> Prop) : (forall a x b y, P a x b y -> P b y a x) ->
  (forall a x b y, float_type b -> (a = DoubleFixed -> b = DoubleFixed) -> P a x b y) ->
  forall a x b y, float_type a \/ float_type b -> P a x b y.
Proof.
  intros S H a x b y [[->| ->]|[->| ->]].
  - assert (D : b = DoubleFixed \/ b <> DoubleFixed) by (destruct b; (left; reflexivity) || (right; discriminate)). destruct D as [->|D].
    + apply H; [right; reflexivity|congruence].
    + apply S, H; [left; reflexivity|congruence].
  - apply S, H; [right; reflexivity|reflexivity].
  - assert (D : a = DoubleFixed \/ a <> DoubleFixed) by (destruct a; (left; reflexivity) || (right; discriminate)). destruct D as [->|D].
    + apply S, H; [right; reflexivity|discriminate].
    + apply H; [left; reflexivity|congruence].
  - apply H; [right; reflexivity|reflexivity].
Qed.

Lemma compare_numbers op a x b y v w : float_type a \/ float_type b -> stands_for a x v -> stands_for b y w ->
  unrounded a x b -> unrounded b y a -> exists r, field_compare op a x b y = Some r /\ (r = true <-> holds op v w).
Proof.
  intros Hf. revert op v w. pattern a, x, b, y. revert a x b y Hf. apply by_mirror.
  - intros a x b y IH op v w Hv Hw U1 U2. destruct (IH (mirrored op) w v Hw Hv U2 U1) as (r & E & Hr). exists r. split; [|rewrite Hr; apply holds_mirrored].
    rewrite <- E. symmetry. apply compare_mirrored.
  - intros a x b y Hb Hab op v w Hv Hw U1 _. destruct Hw as [(Hi & _)|(e & f & s & n & m & Hfm & Hp & Hn & -> & ->)]; [exfalso; eapply integer_not_float; eassumption|].
    pose proof (format_ok b e f Hfm) as (F1 & F2 & F3).
    destruct Hv as [(Hi & Hr & ->)|(e1 & f1 & s1 & n1 & m1 & Hfm1 & Hp1 & Hn1 & -> & ->)].
    + eexists. split; [apply integer_compare; eassumption|]. apply integer_exact; try assumption; [eapply integer_small; eassumption|]. apply (U1 Hi e f Hfm).
    + destruct Hfm1 as [(-> & -> & ->)|(-> & -> & ->)].
      * destruct Hfm as [(-> & -> & ->)|(-> & -> & ->)].
        -- eexists. split; [apply (same_compare op FloatFixed); left; auto|]. apply float_compare_holds; assumption.
        -- destruct (widen_bits s1 n1 m1 Hp1) as (n' & m' & Hp' & Ew & Hnan & Hw). cbn [field_compare promoted to_double]. rewrite Ew.
           eexists. split; [reflexivity|]. rewrite <- Hw by assumption. apply float_compare_holds; try assumption. rewrite <- Hnan. assumption.
      * rewrite Hab in * by reflexivity. destruct Hfm as [(K & _)|(_ & -> & ->)]; [discriminate|].
        eexists. split; [apply (same_compare op DoubleFixed); right; auto|]. apply float_compare_holds; assumption.
Qed.

Lemma compare_rounding a x b e f : integer_type a -> scalar_range a x -> float_format b e f -> ~ representable f x ->
  exists y v, stands_for b y v /\ v <> integer x /\ field_compare CEq a x b y = Some true.
Proof.
  intros Hi Hr Hfm R. pose proof (format_ok b e f Hfm) as (F1 & F2 & F3).
  destruct (integer_rounding e f F1 F2 F3 x (integer_small a x Hi Hr) R) as (s & n & m & Hp & Hn & Hw & Hc).
  exists (float_bits e f s n m), (worth e f s n m). split; [right; exists e, f, s, n, m; auto|]. split; [exact Hw|].
  rewrite (integer_compare CEq a x b _ e f Hi Hfm), Hc. reflexivity.
Qed.

Lemma compare_sides a x b y v : integer_type a -> scalar_range a x -> float_type b -> stands_for b y v ->
  (holds CLe (integer x) v -> field_compare CLe a x b y = Some true) /\ (holds CGe (integer x) v -> field_compare CGe a x b y = Some true).
Proof.
  intros Hi Hr Hb [(K & _)|(e & f & s & n & m & Hfm & Hp & Hn & -> & ->)]; [exfalso; eapply integer_not_float; eassumption|].
  pose proof (format_ok b e f Hfm) as (F1 & F2 & F3). destruct (integer_sides e f F1 F2 F3 x (integer_small a x Hi Hr) s n m Hp Hn) as [S1 S2].
  rewrite !(integer_compare _ a x b _ e f Hi Hfm). split; intros K; f_equal; auto.
Qed.

Lemma compare_nearest a x b y v : integer_type a -> scalar_range a x -> float_type b -> stands_for b y v -> field_compare CEq a x b y = Some true ->
  exists d, distance x v = Some d /\ forall y' v' d', stands_for b y' v' -> distance x v' = Some d' -> d <= d' /\ (v' <> v -> d = d' -> Z.even y = true).
Proof.
  intros Hi Hr Hb [(K & _)|(e & f & s & n & m & Hfm & Hp & Hn & -> & ->)]; [exfalso; eapply integer_not_float; eassumption|].
  pose proof (format_ok b e f Hfm) as (F1 & F2 & F3). rewrite (integer_compare _ a x b _ e f Hi Hfm). intros Hc. assert (Hc' : float_compare e f CEq (from_integer e f x) (float_bits e f s n m) = true) by congruence. clear Hc.
  destruct (integer_nearest e f F1 F2 F3 x (integer_small a x Hi Hr) s n m Hp Hn Hc') as (u & Eu & Hu). rewrite Eu. eexists. split; [reflexivity|].
  intros y' v' d' [(K & _)|(e' & f' & s' & n' & m' & Hfm' & Hp' & Hn' & -> & ->)]; [exfalso; eapply integer_not_float; eassumption|].
  destruct (format_same _ _ _ _ _ Hfm Hfm') as [-> ->]. destruct (worth e f s' n' m') as [t|] eqn:Et; cbn [distance]; [|discriminate]. intros K. assert (d' = Z.abs (x * 2 ^ 1074 - t)) as -> by congruence.
  destruct (Hu s' n' m' t Hp' Hn' Et) as [H1 H2]. split; [exact H1|]. intros Hne Hd.
  assert (Hev : Z.even (from_integer e f x) = true) by (apply H2; [congruence|exact Hd]).
  (* the same bits, unless zero *)
  destruct (from_integer_worth e f F1 F2 F3 x (integer_small a x Hi Hr)) as (s2 & n2 & m2 & Hp2 & Hn2 & E2 & _ & _).
  rewrite E2 in Hc', Hev. rewrite float_compare_values in Hc' by (try assumption; lia). cbn [means] in Hc'.
  assert (K2 : n2 * 2 ^ f + m2 = n * 2 ^ f + m).
  { rewrite !float_value_eq in Hc'. pose proof (magnitude_nonneg e f ltac:(lia) F2 n m Hp). pose proof (magnitude_nonneg e f ltac:(lia) F2 n2 m2 Hp2).
    assert (magnitude f n2 m2 = magnitude f n m) by (destruct s2, s; lia).
    destruct (Z.lt_trichotomy (n2 * 2 ^ f + m2) (n * 2 ^ f + m)) as [L|[L|L]]; [|exact L|]; apply (magnitude_lt e f ltac:(lia) F2) in L; try assumption; lia. }
  unfold float_bits in *. rewrite <- Z.add_assoc, Z.even_add in *. rewrite K2 in Hev.
  assert (Es : forall c : bool, Z.even (if c then 2 ^ (e + f) else 0) = true) by (intros []; [rewrite Z.even_pow by lia|]; reflexivity). rewrite !Es in *. exact Hev.
Qed.

Lemma compare_nan_any op a x b y : holds_nan a x -> integer_type b \/ float_type b -> scalar_range b y -> exists r, field_compare op a x b y = Some r /\ (r = true <-> op = CNe).
Proof.
  intros (e & f & s & n & m & Hfm & Hp & Hnan & ->) Hb Hr. pose proof (format_ok a e f Hfm) as (F1 & F2 & F3). destruct Hb as [Hb|Hb].
  - rewrite <- compare_mirrored, (integer_compare _ b y a _ e f Hb Hfm). eexists. split; [reflexivity|].
    destruct (from_integer_worth e f F1 F2 F3 y (integer_small b y Hb Hr)) as (s2 & n2 & m2 & Hp2 & Hn2 & -> & _). rewrite float_compare_nan by (assumption || lia || (right; assumption)). destruct op; cbn [mirrored]; split; congruence.
  - destruct (type_format b Hb) as (e2 & f2 & Hfm2). destruct (bits_parts b e2 f2 y Hfm2 Hr) as (s2 & n2 & m2 & Hp2 & ->).
    destruct Hfm as [(-> & -> & ->)|(-> & -> & ->)], Hfm2 as [(-> & -> & ->)|(-> & -> & ->)]; cbn [field_compare promoted to_double to_float]; (eexists; split; [reflexivity|]).
    + apply float_compare_nan; try assumption. left; assumption.
    + destruct (widen_bits s n m Hp) as (n' & m' & Hp' & -> & Hn' & _). apply float_compare_nan; try assumption; try lia. left. apply Hn'. assumption.
    + destruct (widen_bits s2 n2 m2 Hp2) as (n' & m' & Hp' & -> & Hn' & _). apply float_compare_nan; try assumption; try lia. left. assumption.
    + apply float_compare_nan; try assumption. left; assumption.
Qed.
