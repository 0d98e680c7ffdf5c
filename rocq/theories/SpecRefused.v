(** * Notions used by C73. *)
From Verif Require Import Base Schema Spec SpecRead.

(** The bytes after the tag of a record make a string or bytes field with room for [cap] bytes refuse the record
    without looking at its payload: the length is unreadable, or it is too large. [rest] stays unread. *)
Inductive refused_string (cap : Z) : list Z -> err -> list Z -> Prop :=
| refused_length bs e rest : varint_fails 5 bs e rest -> refused_string cap bs e rest
| refused_too_long l n rest : varint32 l n -> cap < n -> refused_string cap (l ++ rest) ArrayFull rest.
