(** * SpecCompare: comparing the numbers that fields stand for. *)
From Verif Require Import Base Schema Spec Compare.
From Coq Require Import ZArith List.

(** The relation an operator stands for. *)
Definition means (op : cmp) (x y : Z) : Prop :=
  match op with
  | CEq => x = y
  | CNe => x <> y
  | CGt => x > y
  | CLt => x < y
  | CGe => x >= y
  | CLe => x <= y
  end.
(** The operator with its arguments exchanged. *)
Definition mirrored (op : cmp) : cmp :=
  match op with CGt => CLt | CLt => CGt | CGe => CLe | CLe => CGe | _ => op end.

Definition signed_type (sc : scalar) : Prop := In sc [Int32; SInt32; SFixed32; Int64; SInt64; SFixed64].
Definition unsigned_type (sc : scalar) : Prop := In sc [UInt32; Fixed32; UInt64; Fixed64].
Definition integer_type (sc : scalar) : Prop := signed_type sc \/ unsigned_type sc \/ sc = Boolean.
Definition width (sc : scalar) : Z :=
  match sc with Int64 | SInt64 | SFixed64 | UInt64 | Fixed64 | DoubleFixed => 64 | _ => 32 end.

(** The exponent and fraction bits of float and double. *)
Definition float_format (sc : scalar) (e f : Z) : Prop :=
  sc = FloatFixed /\ e = 8 /\ f = 23 \/ sc = DoubleFixed /\ e = 11 /\ f = 52.
(** A floating point number by its parts, IEEE 754. [s]: the sign, [n]: the exponent field, [m]: the fraction. *)
Definition float_bits (e f : Z) (s : bool) (n m : Z) : Z := (if s then 2 ^ (e + f) else 0) + n * 2 ^ f + m.
Definition parts (e f n m : Z) : Prop := 0 <= n < 2 ^ e /\ 0 <= m < 2 ^ f.
Definition nan_parts (e n m : Z) : Prop := n = 2 ^ e - 1 /\ m <> 0.
(** Its value, in units of the smallest positive number; for an infinity (n = 2^e - 1, m = 0) something larger than all finite
    values. *)
Definition float_value (f : Z) (s : bool) (n m : Z) : Z :=
  (if s then -1 else 1) * (if n =? 0 then m else (2 ^ f + m) * 2 ^ (n - 1)).

(** Numbers, for comparing fields of different types: finite ones in units of 2^-1074 (the smallest positive double), and
    two infinities ([true]: the negative one). *)
Inductive number : Type := Finite (z : Z) | Infinite (s : bool).
Definition less (v w : number) : Prop :=
  match v, w with
  | Finite x, Finite y => x < y
  | Infinite s, Finite _ => s = true
  | Finite _, Infinite t => t = false
  | Infinite s, Infinite t => s = true /\ t = false
  end.
Definition holds (op : cmp) (v w : number) : Prop :=
  match op with
  | CEq => v = w
  | CNe => v <> w
  | CGt => less w v
  | CLt => less v w
  | CGe => ~ less v w
  | CLe => ~ less w v
  end.
(** The smallest positive number of a format is 2^-149 for float and 2^-1074 for double. *)
Definition worth (e f : Z) (s : bool) (n m : Z) : number :=
  if n =? 2 ^ e - 1 then Infinite s else Finite (float_value f s n m * 2 ^ (1074 - (2 ^ (e - 1) - 2 + f))).
Definition integer (z : Z) : number := Finite (z * 2 ^ 1074).
(** The number in a field of class [sc] that holds [x] (for float and double: the bits). A NaN stands for no number. *)
Definition stands_for (sc : scalar) (x : Z) (v : number) : Prop :=
  integer_type sc /\ scalar_range sc x /\ v = integer x
  \/ exists e f s n m, float_format sc e f /\ parts e f n m /\ ~ nan_parts e n m /\ x = float_bits e f s n m /\ v = worth e f s n m.
Definition holds_nan (sc : scalar) (x : Z) : Prop :=
  exists e f s n m, float_format sc e f /\ parts e f n m /\ nan_parts e n m /\ x = float_bits e f s n m.
Definition float_type (sc : scalar) : Prop := sc = FloatFixed \/ sc = DoubleFixed.
(** Integers that are exactly a number with [f] fraction bits. *)
Definition representable (f z : Z) : Prop := exists q k, 0 <= k /\ z = q * 2 ^ k /\ Z.abs q <= 2 ^ (f + 1).
(** The integer [x] can be compared with a field of class [b] without rounding. *)
Definition unrounded (a : scalar) (x : Z) (b : scalar) : Prop :=
  integer_type a -> forall e f, float_format b e f -> representable f x.
(** How far an integer is from a number; a number is nearer than another. *)
Definition distance (x : Z) (v : number) : option Z := match v with Finite z => Some (Z.abs (x * 2 ^ 1074 - z)) | Infinite _ => None end.
