(** * AliasText: string and bytes fields set from a pointer into their own array, such as
      `s.set(s.get_const() + 2, 3)` or `s = s.get_const() + 2`.

    memcpy and strncpy are undefined when source and destination overlap (ISO C 7.24.2). Simplification: when both
    start at the same address the copy is taken to change nothing, as in Alias.v. *)
From Verif Require Import Base Buffers Wire Schema Fields Message Api.

(** [n] characters from [offset] on and [n] characters from the beginning of the same array have some, but not all,
    places in common. *)
Definition overlap (offset n : Z) : bool := (0 <? offset) && (offset <? n).

(** src/FieldStringBytes.h:159-172  set(const DATA_TYPE* data, const uint32_t length) with data = get_const() + offset *)
Definition set_own_bytes (v : value) (offset len : Z) : res (err * value) :=
  match v with
  | VB cur data =>
      if len <=? zlen data then
        if overlap offset len then UB
        else let* data' := memcpy data 0 (skipn (Z.to_nat offset) data) len in Done (NoErrors, VB len data')
      else Done (ArrayFull, v)
  | _ => UB
  end.

(** src/FieldStringBytes.h:335-350  FieldString::set(const char* ) with str = get_const() + offset; also operator=,
    lines 325-329. The new length is stored before the characters are copied; the array is not touched by this. *)
Definition set_own_cstr (v : value) (offset : Z) : res (err * value) :=
  match v with
  | VB cur data =>
      let s := skipn (Z.to_nat offset) data in
      let max := zlen data in
      let* n := strnlen (Z.to_nat (u32 (max + 1))) 0 s in
      let len := Z.min n max in
      let this_length := if len <? max then len + 1 else len in
      if overlap offset this_length then UB
      else
        let* l := strncpy_bytes (Z.to_nat this_length) s in
        let* data' := memcpy data 0 l this_length in
        Done (NoErrors, VB len data')
  | _ => UB
  end.
