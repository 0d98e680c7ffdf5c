(** * Bytes that mention a field

    Specification of C84. *)
From Verif Require Import Base Schema Spec.

(** Somewhere in [bs], at whatever place, are bytes that can be read as the tag of field [num]: a varint of at most
    five bytes whose value, modulo 2^32, is the number and any of the six wire types. *)
Definition mentions (bs : list Z) (num : Z) : Prop :=
  exists pre tg post w, bs = pre ++ tg ++ post /\ varint32 tg (num * 8 + wt_code w).
