(** * Base: outcomes, C++ integers, arrays, error codes.

    Shared vocabulary of the model. Nothing here is specific to one function of the code base;
    the definitions cite the language feature or the file they stand for. *)
From Coq Require Export List ZArith Lia Bool.
Export ListNotations.
Global Open Scope Z_scope.

(** Outcome of running a piece of C++ code.
    [UB] is undefined behaviour: an access outside an array (std::array::operator[] is unchecked,
    memcpy/strncpy outside an object), or reading an indeterminate value.
    [Fuel] says that the loop bound handed to a [while] loop of the model was too small. *)
Inductive res (A : Type) : Type :=
| Done (a : A)
| UB
| Fuel.
Arguments Done {A} a.
Arguments UB {A}.
Arguments Fuel {A}.

(** Sequencing of C++ statements and expressions: what follows undefined behaviour is not run. *)
Definition bind {A B} (m : res A) (k : A -> res B) : res B :=
  match m with Done a => k a | UB => UB | Fuel => Fuel end.

Notation "'let*' p ':=' m 'in' k" := (bind m (fun p => k))
  (at level 61, p as pattern, m at next level, right associativity).

(** src/Errors.h:37-47  enum class Error. *)
Inductive err : Type :=
| NoErrors | EndOfBuffer | BufferFull | InvalidWiretype | ArrayFull | InvalidFieldId
| OverlongVarint | IndexOutOfBound.

(** The test `Error::NO_ERRORS == return_value` that guards every step, e.g. src/Fields.h:161,
    templates/TypeDefMsg.h:163-180. *)
Definition is_ok (e : err) : bool := match e with NoErrors => true | _ => false end.

(** src/WireFormatter.h:74-82  enum class WireType. *)
Inductive wiretype : Type := VARINT | FIXED64 | LENDEL | STARTGROUP | ENDGROUP | FIXED32.

(** The enumerators of WireType, src/WireFormatter.h:74-82. *)
Definition wt_code (w : wiretype) : Z :=
  match w with
  | VARINT => 0 | FIXED64 => 1 | LENDEL => 2 | STARTGROUP => 3 | ENDGROUP => 4 | FIXED32 => 5
  end.

(** static_cast<WireType>(n) for n in 0..5 (guarded by the caller, src/WireFormatter.h:345-348). *)
Definition wt_of_code (n : Z) : wiretype :=
  match n with
  | 0 => VARINT | 1 => FIXED64 | 2 => LENDEL | 3 => STARTGROUP | 4 => ENDGROUP | _ => FIXED32
  end.

(** operator== on WireType, as in src/Fields.h:157-166 deserialize_check_type and its equivalents. *)
Definition wt_eqb (a b : wiretype) : bool := wt_code a =? wt_code b.

(** C++ integer conversions (two's complement, as required since C++20 and provided by every
    supported compiler before). *)
Definition u8 (z : Z) : Z := z mod 2 ^ 8.
Definition u32 (z : Z) : Z := z mod 2 ^ 32.
Definition u64 (z : Z) : Z := z mod 2 ^ 64.
Definition uw (w z : Z) : Z := z mod 2 ^ w.
(** Conversion to a signed type of [w] bits. *)
Definition sw (w z : Z) : Z :=
  let m := z mod 2 ^ w in if m <? 2 ^ (w - 1) then m else m - 2 ^ w.
Definition s32 (z : Z) : Z := sw 32 z.
Definition s64 (z : Z) : Z := sw 64 z.

(** The values of uint8_t, uint32_t and uint64_t. *)
Definition is_byte (b : Z) : Prop := 0 <= b < 256.
Definition is_u32 (z : Z) : Prop := 0 <= z < 2 ^ 32.
Definition is_u64 (z : Z) : Prop := 0 <= z < 2 ^ 64.

(** Length of a list as a Z. *)
Definition zlen {A} (l : list A) : Z := Z.of_nat (length l).

(** Arrays: std::array<T,N> is a list of length N. operator[] outside the array is UB. *)
Definition aget {A} (l : list A) (i : Z) : res A :=
  if 0 <=? i then
    match nth_error l (Z.to_nat i) with Some x => Done x | None => UB end
  else UB.

(** Arrays: the array after an assignment to the element [n]. *)
Fixpoint upd {A} (n : nat) (x : A) (l : list A) : list A :=
  match l, n with
  | [], _ => []
  | _ :: l', O => x :: l'
  | y :: l', S n' => y :: upd n' x l'
  end.

(** `array[i] = x`; outside of the array it is UB. *)
Definition aset {A} (l : list A) (i : Z) (x : A) : res (list A) :=
  if (0 <=? i) && (i <? zlen l) then Done (upd (Z.to_nat i) x l) else UB.

(** memcpy(dst + off, src, len): UB when it reads outside [src] or writes outside [dst]. *)
Definition memcpy {A} (dst : list A) (off : Z) (src : list A) (len : Z) : res (list A) :=
  if (0 <=? off) && (0 <=? len) && (len <=? zlen src) && (off + len <=? zlen dst) then
    Done (firstn (Z.to_nat off) dst ++ firstn (Z.to_nat len) src
          ++ skipn (Z.to_nat (off + len)) dst)
  else UB.

(** An array whose [n] elements all have the value [x], as after std::array<T,N>::fill or memset. *)
Definition zrepeat {A} (x : A) (n : Z) : list A := repeat x (Z.to_nat n).
