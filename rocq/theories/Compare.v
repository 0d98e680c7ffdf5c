(** * Compare: the comparison operators of the scalar field classes, src/Fields.h:202-220. *)
From Verif Require Import Base Schema.
From Coq Require Import ZArith Bool.

(** The six operators. *)
Inductive cmp : Type := CEq | CNe | CGt | CLt | CGe | CLe.
(** The operators of C++ on two integers of the same type. *)
Definition same_type (op : cmp) (x y : Z) : bool :=
  match op with
  | CEq => x =? y
  | CNe => negb (x =? y)
  | CGt => y <? x
  | CLt => x <? y
  | CGe => y <=? x
  | CLe => x <=? y
  end.

(** VARIABLE_TYPE of the class (src/Fields.h:441-456) after integral promotion: signed or not, and the number of
    bits; bool becomes int, taken to have 32 bits. The other classes have no integer type; an enum class is not
    promoted. *)
Definition promoted (sc : scalar) : option (bool * Z) :=
  match sc with
  | Int32 | SInt32 | SFixed32 | Boolean => Some (true, 32)
  | UInt32 | Fixed32 => Some (false, 32)
  | Int64 | SInt64 | SFixed64 => Some (true, 64)
  | UInt64 | Fixed64 => Some (false, 64)
  | Enumeration | FloatFixed | DoubleFixed => None
  end.

(** The usual arithmetic conversions: the wider type; of two types of the same width the unsigned one. *)
Definition common (a b : bool * Z) : bool * Z :=
  if snd a =? snd b then (fst a && fst b, snd a) else if snd a <? snd b then b else a.
(** Conversion to that type. It is signed only if it has all values of both types. *)
Definition convert (t : bool * Z) (z : Z) : Z := if fst t then z else z mod 2 ^ snd t.

(** float (8 exponent and 23 fraction bits) and double (11 and 52), given by their bits: IEEE 754 comparison.
    NaN is unordered; otherwise the bits without the sign are ordered like the magnitudes. *)
Definition is_nan (e f : Z) (b : Z) : bool := (2 ^ e - 1) * 2 ^ f <? b mod 2 ^ (e + f).
Definition ordered_key (e f : Z) (b : Z) : Z := if b <? 2 ^ (e + f) then b else - (b - 2 ^ (e + f)).
Definition float_compare (e f : Z) (op : cmp) (x y : Z) : bool :=
  if is_nan e f x || is_nan e f y then match op with CNe => true | _ => false end
  else same_type op (ordered_key e f x) (ordered_key e f y).

(** Conversion of an integer to float or double: the nearest number, of two equally near the one with an even fraction
    (IEEE 754 default rounding, which C++ leaves to the implementation). [k]: the exponent; [q]: the leading f + 1
    bits, rounded. A carry out of the fraction increments the exponent. *)
Definition leading (f a : Z) : Z :=
  let k := Z.log2 a in
  if k <=? f then a * 2 ^ (f - k)
  else
    let w := 2 ^ (k - f) in
    let q := a / w in
    if (w <? 2 * (a mod w)) || ((2 * (a mod w) =? w) && Z.odd q) then q + 1 else q.
Definition from_integer (e f : Z) (z : Z) : Z :=
  let a := Z.abs z in
  (if z <? 0 then 2 ^ (e + f) else 0)
    + (if a =? 0 then 0 else (Z.log2 a + 2 ^ (e - 1) - 2) * 2 ^ f + leading f a).
(** Conversion of a float to double, which has all its values: infinities and NaN, denormalised numbers (which become
    normalised), the others. Simplified: the fraction of a NaN is kept, where a processor may also set its first bit. *)
Definition widen (b : Z) : Z :=
  let n := b / 2 ^ 23 mod 2 ^ 8 in
  let m := b mod 2 ^ 23 in
  (if b <? 2 ^ 31 then 0 else 2 ^ 63)
    + (if n =? 255 then 2047 * 2 ^ 52 + m * 2 ^ 29
       else if n =? 0 then (if m =? 0 then 0 else (Z.log2 m + 873) * 2 ^ 52 + m * 2 ^ (52 - Z.log2 m))
       else (n + 896) * 2 ^ 52 + m * 2 ^ 29).

(** The usual arithmetic conversions with a double among the operands, and with a float and no double. An enum class
    is not converted. *)
Definition to_double (sc : scalar) (x : Z) : option Z :=
  match sc with
  | DoubleFixed => Some x
  | FloatFixed => Some (widen x)
  | Enumeration => None
  | _ => Some (from_integer 11 52 x)
  end.
Definition to_float (sc : scalar) (x : Z) : option Z :=
  match sc with
  | FloatFixed => Some x
  | Enumeration | DoubleFixed => None
  | _ => Some (from_integer 8 23 x)
  end.

(** src/Fields.h:202-207 (comparison with a VARIABLE_TYPE, [a] = [b]) and 209-220 (with another field). None:
    comparing an enum with something else does not compile. Enumerations are of the same enum, whose underlying type
    is uint32_t (templates/TypeDefEnum.h:30). Floating point operands are compared in the common type, not with
    excess precision (FLT_EVAL_METHOD 0). *)
Definition field_compare (op : cmp) (a : scalar) (x : Z) (b : scalar) (y : Z) : option bool :=
  match promoted a, promoted b with
  | Some ta, Some tb => Some (same_type op (convert (common ta tb) x) (convert (common ta tb) y))
  | _, _ =>
      match a, b with
      | Enumeration, Enumeration => Some (same_type op x y)
      | DoubleFixed, _ | _, DoubleFixed =>
          match to_double a x, to_double b y with Some u, Some v => Some (float_compare 11 52 op u v) | _, _ => None end
      | _, _ =>
          match to_float a x, to_float b y with Some u, Some v => Some (float_compare 8 23 op u v) | _, _ => None end
      end
  end.
