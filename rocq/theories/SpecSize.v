(** * SpecSize: the largest encoding a message type can have, from the .proto alone.
    Written from the encoding documentation and the capacities in the type; no function of the model occurs. *)
From Verif Require Import Base Schema Spec.

(** Bytes of the longest value of each scalar type: 32-bit numbers have five groups of seven bits, 64-bit ones ten. *)
Definition scalar_max (sc : scalar) : Z :=
  match sc with
  | Int32 | UInt32 | SInt32 | Enumeration => 5
  | Int64 | UInt64 | SInt64 => 10
  | Boolean => 1
  | Fixed32 | SFixed32 | FloatFixed => 4
  | Fixed64 | SFixed64 | DoubleFixed => 8
  end.

(** One record with a value of [p] bytes: the tag, for strings and messages the length, the value. *)
Definition record_max (num : Z) (t : ety) (p : Z) : Z :=
  zlen (tag num (elem_wiretype t)) + match t with EScalar _ => p | _ => zlen (varint p) + p end.

(** All records of one field whose values have at most [p] bytes. A plain message field that can only be empty
    is never written; packed elements share one tag and one length. *)
Definition field_max (num : Z) (k : fkind) (t : ety) (p : Z) : Z :=
  match k with
  | KPlain => if p =? 0 then 0 else record_max num t p
  | KOpt => record_max num t p
  | KRep max => match t with
                | EScalar _ => zlen (tag num LENDEL) + (zlen (varint (max * p)) + max * p)
                | _ => max * record_max num t p
                end
  | KRecursive => 0
  end.

Definition total (l : list Z) : Z := fold_right Z.add 0 l.
Definition largest (l : list Z) : Z := fold_right Z.max 0 l.

(** A message: all fields, and of every oneof the longest member. *)
Fixpoint max_size (t : ety) : Z :=
  match t with
  | EScalar sc => scalar_max sc
  | EBytes _ max => max
  | EMsg fs os =>
      total (map (fun '(num, k, t) => field_max num k t (max_size t)) fs)
      + total (map (fun ms => largest (map (fun '(num, t) => record_max num t (max_size t)) ms)) os)
  end.
