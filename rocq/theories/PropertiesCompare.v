(** * Property C62: comparing fields.

    [field_compare op a x b y] is what the operator [op] of a field of class [a] with value [x] returns for a field
    of class [b] with value [y] (for [a] = [b] also for a value [y]); None: does not compile. [means op]: the relation between
    integers that the operator stands for, [holds op]: the same for numbers with infinities. *)
From Verif Require Import Base Schema Spec Compare SpecCompare CompareProps FloatProps.
From Coq Require Import ZArith List Lia.

(** Integer fields: the numbers are compared, if they are not negative, both classes are signed, or the signed
    class is wider. Missing: a negative number and an unsigned class at least as wide (C62_mixed_refuted). *)
Theorem C62_integers_partial : forall op a x b y,
  integer_type a -> integer_type b -> scalar_range a x -> scalar_range b y ->
  (0 <= x /\ 0 <= y) \/ (signed_type a /\ signed_type b) \/ (signed_type a /\ width b < width a) \/ (signed_type b /\ width a < width b)
    \/ (signed_type a /\ b = Boolean) \/ (signed_type b /\ a = Boolean) ->
  exists r, field_compare op a x b y = Some r /\ (r = true <-> means op x y).
Proof. exact compare_integers. Qed.
Print Assumptions C62_integers_partial.

Example C62_integers_applies : integer_type SFixed64 /\ integer_type UInt32 /\ scalar_range SFixed64 (-5) /\ scalar_range UInt32 4294967295
  /\ signed_type SFixed64 /\ width UInt32 < width SFixed64 /\ field_compare CLt SFixed64 (-5) UInt32 4294967295 = Some true.
Proof.
  split; [left; cbn; tauto|]. split; [right; left; cbn; tauto|]. split; [cbn; lia|]. split; [cbn; lia|]. split; [cbn; tauto|]. split; reflexivity.
Qed.

(** A negative number is compared with an unsigned field as a number that is 2^width larger: it is equal to some
    number, and not less than all those up to that. *)
Theorem C62_mixed_refuted : forall a x b y,
  signed_type a -> unsigned_type b -> width a <= width b -> scalar_range a x -> scalar_range b y -> x < 0 ->
  (y = x + 2 ^ width b -> field_compare CEq a x b y = Some true) /\ (y <= x + 2 ^ width b -> field_compare CLt a x b y = Some false).
Proof. exact compare_mixed. Qed.
Print Assumptions C62_mixed_refuted.

Example C62_mixed_applies : signed_type Int32 /\ unsigned_type UInt32 /\ width Int32 <= width UInt32 /\ scalar_range Int32 (-1)
  /\ scalar_range UInt32 4294967295 /\ 4294967295 = -1 + 2 ^ width UInt32 /\ field_compare CEq Int32 (-1) UInt32 4294967295 = Some true
  /\ field_compare CLt Int32 (-1) UInt32 3 = Some false.
Proof. split; [cbn; tauto|]. split; [cbn; tauto|]. split; [cbn; lia|]. split; [cbn; lia|]. split; [cbn; lia|]. repeat split. Qed.

(** The same operators exactly, for all six. *)
Theorem C62_wrapped : forall op a x b y,
  signed_type a -> unsigned_type b -> width a <= width b -> scalar_range a x -> scalar_range b y -> x < 0 ->
  exists r, field_compare op a x b y = Some r /\ (r = true <-> means op (x + 2 ^ width b) y).
Proof. exact compare_wrapped. Qed.
Print Assumptions C62_wrapped.

Example C62_wrapped_applies : signed_type SInt32 /\ unsigned_type Fixed64 /\ width SInt32 <= width Fixed64 /\ scalar_range SInt32 (-7)
  /\ scalar_range Fixed64 12 /\ field_compare CGe SInt32 (-7) Fixed64 12 = Some true.
Proof. split; [cbn; tauto|]. split; [cbn; tauto|]. split; [cbn; lia|]. split; [cbn; lia|]. split; [cbn; lia|]. reflexivity. Qed.

(** Exchanging the sides makes no difference. *)
Theorem C62_mirrored : forall op a x b y, field_compare (mirrored op) b y a x = field_compare op a x b y.
Proof. exact compare_mirrored. Qed.
Print Assumptions C62_mirrored.

Example C62_mirrored_applies : field_compare CLt UInt64 3 Int32 (-1) = Some true /\ field_compare CGt Int32 (-1) UInt64 3 = Some true.
Proof. split; reflexivity. Qed.

(** Fields of the same enum. *)
Theorem C62_enum : forall op x y, exists r, field_compare op Enumeration x Enumeration y = Some r /\ (r = true <-> means op x y).
Proof. exact compare_enum. Qed.
Print Assumptions C62_enum.

Example C62_enum_applies : field_compare CGt Enumeration 7 Enumeration 3 = Some true /\ field_compare CEq Enumeration 7 Enumeration 3 = Some false.
Proof. split; reflexivity. Qed.

(** float with float and double with double: the values are compared (so 0.0 equals -0.0). *)
Theorem C62_floats : forall sc e f op s1 n1 m1 s2 n2 m2,
  float_format sc e f -> parts e f n1 m1 -> parts e f n2 m2 -> ~ nan_parts e n1 m1 -> ~ nan_parts e n2 m2 ->
  exists r, field_compare op sc (float_bits e f s1 n1 m1) sc (float_bits e f s2 n2 m2) = Some r
    /\ (r = true <-> means op (float_value f s1 n1 m1) (float_value f s2 n2 m2)).
Proof. exact compare_floats. Qed.
Print Assumptions C62_floats.

(** 1.5 and -2.25. *)
Example C62_floats_applies : float_format FloatFixed 8 23 /\ parts 8 23 127 4194304 /\ parts 8 23 128 1048576 /\ ~ nan_parts 8 127 4194304
  /\ ~ nan_parts 8 128 1048576 /\ field_compare CGt FloatFixed (float_bits 8 23 false 127 4194304) FloatFixed (float_bits 8 23 true 128 1048576) = Some true
  /\ float_value 23 true 128 1048576 * 6 = float_value 23 false 127 4194304 * -9.
Proof.
  split; [left; repeat split|]. unfold parts, nan_parts. split; [lia|]. split; [lia|]. split; [lia|]. split; [lia|]. split; vm_compute; reflexivity.
Qed.

(** NaN is different from everything and not ordered. *)
Theorem C62_nan : forall sc e f op s1 n1 m1 s2 n2 m2,
  float_format sc e f -> parts e f n1 m1 -> parts e f n2 m2 -> nan_parts e n1 m1 \/ nan_parts e n2 m2 ->
  exists r, field_compare op sc (float_bits e f s1 n1 m1) sc (float_bits e f s2 n2 m2) = Some r /\ (r = true <-> op = CNe).
Proof. exact compare_nans. Qed.
Print Assumptions C62_nan.

Example C62_nan_applies : float_format DoubleFixed 11 52 /\ parts 11 52 2047 1 /\ parts 11 52 5 5 /\ nan_parts 11 2047 1.
Proof. split; [right; repeat split|]. unfold parts, nan_parts. split; [lia|]. split; lia. Qed.

(** Every value of a float or double field is covered by the last two. *)
Theorem C62_all_floats : forall sc e f b, float_format sc e f -> scalar_range sc b -> exists s n m, parts e f n m /\ b = float_bits e f s n m.
Proof. exact bits_parts. Qed.
Print Assumptions C62_all_floats.

Example C62_all_floats_applies : float_format FloatFixed 8 23 /\ scalar_range FloatFixed 3221225472.
Proof. split; [left; repeat split|cbn; lia]. Qed.

(** float with double, and both with integers: the numbers are compared exactly (infinities included), unless an integer is
    not a number of the floating point type. Missing: those integers (C62_rounding_refuted). *)
Theorem C62_numbers_partial : forall op a x b y v w,
  float_type a \/ float_type b -> stands_for a x v -> stands_for b y w -> unrounded a x b -> unrounded b y a ->
  exists r, field_compare op a x b y = Some r /\ (r = true <-> holds op v w).
Proof. exact compare_numbers. Qed.
Print Assumptions C62_numbers_partial.

(** 0.1f is larger than 0.1; and 2^63 as uint64 is not larger than the float of that value. *)
Example C62_numbers_applies :
  stands_for FloatFixed 1036831949 (worth 8 23 false 123 5033165) /\ stands_for DoubleFixed 4591870180066957722 (worth 11 52 false 1019 2702159776422298)
  /\ unrounded FloatFixed 1036831949 DoubleFixed /\ unrounded DoubleFixed 4591870180066957722 FloatFixed
  /\ field_compare CGt FloatFixed 1036831949 DoubleFixed 4591870180066957722 = Some true
  /\ stands_for UInt64 9223372036854775808 (integer (2 ^ 63)) /\ unrounded UInt64 9223372036854775808 FloatFixed
  /\ field_compare CGt UInt64 9223372036854775808 FloatFixed 1593835520 = Some false.
Proof.
  split; [right; exists 8, 23, false, 123, 5033165; split; [left; auto|]; unfold parts, nan_parts; split; [lia|]; split; [lia|]; split; reflexivity|].
  split; [right; exists 11, 52, false, 1019, 2702159776422298; split; [right; auto|]; unfold parts, nan_parts; split; [lia|]; split; [lia|]; split; reflexivity|].
  split; [intros K; exfalso; apply (integer_not_float _ K); left; reflexivity|].
  split; [intros K; exfalso; apply (integer_not_float _ K); right; reflexivity|]. split; [vm_compute; reflexivity|].
  split; [left; split; [right; left; cbn; tauto|]; split; [cbn; lia|reflexivity]|]. split; [|vm_compute; reflexivity].
  intros _ e f [(_ & -> & ->)|(K & _)]; [|discriminate]. exists 1, 63. split; [lia|]. split; [reflexivity|]. cbn; lia.
Qed.

(** Every integer that is not a number of the floating point type is equal to a field that stands for another number. *)
Theorem C62_rounding_refuted : forall a x b e f,
  integer_type a -> scalar_range a x -> float_format b e f -> ~ representable f x ->
  exists y v, stands_for b y v /\ v <> integer x /\ field_compare CEq a x b y = Some true.
Proof. exact compare_rounding. Qed.
Print Assumptions C62_rounding_refuted.

(** 16777217 in an int32 field equals 16777216.0f. *)
Example C62_rounding_applies : integer_type Int32 /\ scalar_range Int32 16777217 /\ float_format FloatFixed 8 23 /\ ~ representable 23 16777217
  /\ field_compare CEq Int32 16777217 FloatFixed 1266679808 = Some true /\ field_compare CEq Int32 16777216 FloatFixed 1266679808 = Some true.
Proof.
  split; [left; cbn; tauto|]. split; [cbn; lia|]. split; [left; auto|]. split; [|split; vm_compute; reflexivity].
  intros (q & k & Hk & E & Hq). change (2 ^ (23 + 1)) with 16777216 in Hq. destruct (Z.eq_dec k 0) as [->|Hne]; [cbn in E; lia|].
  assert (H : Z.even (q * 2 ^ k) = true) by (rewrite Z.even_mul, (Z.even_pow 2 k) by lia; apply Bool.orb_true_r). rewrite <- E in H. discriminate H.
Qed.

(** Rounding never turns the order around: an integer that is not larger compares as not larger, and one that is not smaller as not
    smaller. *)
Theorem C62_order : forall a x b y v,
  integer_type a -> scalar_range a x -> float_type b -> stands_for b y v ->
  (holds CLe (integer x) v -> field_compare CLe a x b y = Some true) /\ (holds CGe (integer x) v -> field_compare CGe a x b y = Some true).
Proof. exact compare_sides. Qed.
Print Assumptions C62_order.

(** The largest uint64 and the float 2^63. *)
Example C62_order_applies : integer_type UInt64 /\ scalar_range UInt64 18446744073709551615 /\ float_type FloatFixed
  /\ stands_for FloatFixed 1593835520 (worth 8 23 false 190 0) /\ holds CGe (integer 18446744073709551615) (worth 8 23 false 190 0).
Proof.
  split; [right; left; cbn; tauto|]. split; [cbn; lia|]. split; [left; reflexivity|].
  split; [right; exists 8, 23, false, 190, 0; split; [left; auto|]; unfold parts, nan_parts; split; [lia|]; split; [lia|]; split; reflexivity|].
  vm_compute. intros K. discriminate K.
Qed.

(** An integer is equal to the field that is nearest to it; of two equally near ones, to the one whose last bit is 0. *)
Theorem C62_nearest : forall a x b y v,
  integer_type a -> scalar_range a x -> float_type b -> stands_for b y v -> field_compare CEq a x b y = Some true ->
  exists d, distance x v = Some d
    /\ forall y' v' d', stands_for b y' v' -> distance x v' = Some d' -> d <= d' /\ (v' <> v -> d = d' -> Z.even y = true).
Proof. exact compare_nearest. Qed.
Print Assumptions C62_nearest.

(** -(2^53 + 1) in an int64 field and the double -2^53. *)
Example C62_nearest_applies : integer_type SInt64 /\ scalar_range SInt64 (-9007199254740993) /\ float_type DoubleFixed
  /\ stands_for DoubleFixed 14069245235905429504 (worth 11 52 true 1076 0) /\ field_compare CEq SInt64 (-9007199254740993) DoubleFixed 14069245235905429504 = Some true.
Proof.
  split; [left; cbn; tauto|]. split; [cbn; lia|]. split; [right; reflexivity|]. split; [|vm_compute; reflexivity].
  right; exists 11, 52, true, 1076, 0; split; [right; auto|]; unfold parts, nan_parts; split; [lia|]; split; [lia|]; split; reflexivity.
Qed.

(** NaN is different from every field and not ordered. *)
Theorem C62_nan_mixed : forall op a x b y,
  holds_nan a x -> integer_type b \/ float_type b -> scalar_range b y -> exists r, field_compare op a x b y = Some r /\ (r = true <-> op = CNe).
Proof. exact compare_nan_any. Qed.
Print Assumptions C62_nan_mixed.

Example C62_nan_mixed_applies : holds_nan FloatFixed 2143289344 /\ float_type DoubleFixed /\ scalar_range DoubleFixed 9221120237041090560
  /\ field_compare CNe FloatFixed 2143289344 DoubleFixed 9221120237041090560 = Some true.
Proof.
  split; [exists 8, 23, false, 255, 4194304; split; [left; auto|]; unfold parts, nan_parts; split; [lia|]; split; [lia|]; reflexivity|].
  split; [right; reflexivity|]. split; [cbn; lia|vm_compute; reflexivity].
Qed.
