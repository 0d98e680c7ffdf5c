(** * Notions used by the properties about malformed input. *)
From Verif Require Import Base Buffers Schema Message Spec Contracts SpecRead.

(** Decoding the bytes [bs] into the object [v], from any read buffer that meets its contract, returns
    [e], leaves [rest] unread and an object that is valid and clean and whose getters show [new]. *)
Definition decodes (t : ety) (v : value) (bs : list Z) (e : err) (new : sval) (rest : list Z) : Prop :=
  forall S (R : rops S) rel, reader_ok R rel -> forall s, rel s bs -> forall fuel, (length bs < fuel)%nat ->
  exists v' s', deserialize fuel t S R v s = Done (e, v', s') /\ rel s' rest
    /\ wt t v' /\ clean t v' /\ view t v' = new.

(** A number of records read one after the other without error. [bd]: see SpecRead.v. *)
Inductive records_read (bd : bool) (fs : list fdesc) (os : list odesc) : sval -> list Z -> sval -> list Z -> Prop :=
| records_none old bs : records_read bd fs os old bs old bs
| records_more old bs mid bs' mid' bs'' : rread false bd fs os old bs NoErrors mid bs' ->
    records_read bd fs os mid bs' mid' bs'' -> records_read bd fs os old bs mid' bs''.

(** Two message values differ in one field, or in one oneof, at most. *)
Definition one_place (a b : sval) : Prop :=
  exists vs ovs, a = SvM vs ovs
  /\ (b = a \/ (exists i x, b = SvM (upd i x vs) ovs) \/ (exists j o, b = SvM vs (upd j o ovs))).

(** A complete record. *)
Definition record (fs : list fdesc) (os : list odesc) (r : list Z) : Prop :=
  exists old new, rdec fs os old r new.

(** A field or oneof member with number [num] and element type [t]. *)
Definition has_field (fs : list fdesc) (os : list odesc) (num : Z) (k : fkind) (t : ety) : Prop :=
  (exists i, nth_error fs i = Some (num, k, t))
  \/ (k = KPlain /\ exists j ms, nth_error os j = Some ms /\ lookup ms num = Some t).

(** Byte strings that end at a record boundary, inside a tag, inside the length or the payload of a
    packed field, or at such a place inside a nested message. *)
Inductive seam : list fdesc -> list odesc -> list Z -> Prop :=
| seam_tag fs os c : (length c < 5)%nat -> Forall (fun b => 128 <= b < 256) c -> seam fs os c
| seam_record fs os r a : record fs os r -> seam fs os a -> seam fs os (r ++ a)
| seam_msg fs os num k f o tg l n p : has_field fs os num k (EMsg f o) ->
    varint32 tg (num * 8 + wt_code LENDEL) -> varint32 l n -> zlen p < n -> seam f o p ->
    seam fs os (tg ++ l ++ p)
| seam_packed_length fs os num max sc tg c : has_field fs os num (KRep max) (EScalar sc) ->
    varint32 tg (num * 8 + wt_code LENDEL) -> (length c < 5)%nat -> Forall (fun b => 128 <= b < 256) c ->
    seam fs os (tg ++ c)
| seam_packed fs os num max sc tg l n p : has_field fs os num (KRep max) (EScalar sc) ->
    varint32 tg (num * 8 + wt_code LENDEL) -> varint32 l n -> zlen p < n -> seam fs os (tg ++ l ++ p).

(** No nested messages and no packed fields. *)
Definition flat (fs : list fdesc) (os : list odesc) : Prop :=
  forall num k t, has_field fs os num k t ->
    match t, k with EMsg _ _, _ => False | EScalar _, KRep _ => False | _, _ => True end.

(** A message type with a single int32 field. *)
Definition one_int32 (num : Z) : ety := EMsg [(num, KPlain, EScalar Int32)] [].
