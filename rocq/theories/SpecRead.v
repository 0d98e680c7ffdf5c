(** * Specification of decoding for arbitrary bytes: which error, which values, how much was read.

    Like the relations of Spec.v these speak of bytes and of the values the getters show, never of
    the model. *)
From Verif Require Import Base Schema Spec.

(** Reading a varint of at most [k] bytes from [bs] fails with [e], leaving [rest]: the bytes end
    before a terminating byte, or there is none among the first [k]. *)
Inductive varint_fails (k : nat) : list Z -> err -> list Z -> Prop :=
| varint_cut bs : (length bs < k)%nat -> Forall (fun b => 128 <= b < 256) bs ->
    varint_fails k bs EndOfBuffer []
| varint_overlong bs rest : length bs = k -> Forall (fun b => 128 <= b < 256) bs ->
    varint_fails k (bs ++ rest) OverlongVarint rest.

(** Reading a scalar fails. *)
Inductive scalar_fails (sc : scalar) : list Z -> err -> list Z -> Prop :=
| scalar_fails_varint bs e rest : scalar_wiretype sc = VARINT -> sc <> Boolean ->
    varint_fails (match sc with UInt32 | Enumeration => 5 | _ => 10 end) bs e rest -> scalar_fails sc bs e rest
| scalar_fails_bool : sc = Boolean -> scalar_fails sc [] EndOfBuffer []
| scalar_fails_fixed32 bs : scalar_wiretype sc = FIXED32 -> (length bs < 4)%nat ->
    scalar_fails sc bs EndOfBuffer []
| scalar_fails_fixed64 bs : scalar_wiretype sc = FIXED64 -> (length bs < 8)%nat ->
    scalar_fails sc bs EndOfBuffer [].

(** What is read as a scalar: an encoding of it; for a bool also the first byte of a longer varint. *)
Inductive scalar_reads (sc : scalar) : list Z -> Z -> Prop :=
| scalar_reads_dec c z : scalar_dec sc c z -> scalar_reads sc c z
| scalar_reads_bool b : sc = Boolean -> 128 <= b < 256 -> scalar_reads sc [b] 1.
Inductive packed_reads (sc : scalar) : list Z -> list Z -> Prop :=
| packed_reads_nil : packed_reads sc [] []
| packed_reads_cons c z q zs : scalar_reads sc c z -> packed_reads sc q zs ->
    packed_reads sc (c ++ q) (z :: zs).

(** Skipping the body of an unknown record fails. *)
Inductive skip_fails : wiretype -> list Z -> err -> list Z -> Prop :=
| skip_fails_varint bs e rest : varint_fails 10 bs e rest -> skip_fails VARINT bs e rest
| skip_fails_fixed32 bs : (length bs < 4)%nat -> skip_fails FIXED32 bs EndOfBuffer []
| skip_fails_fixed64 bs : (length bs < 8)%nat -> skip_fails FIXED64 bs EndOfBuffer []
| skip_fails_lendel bs e rest : varint_fails 5 bs e rest -> skip_fails LENDEL bs e rest.

(** An announced length [n] covers [p] of the remaining bytes [p ++ tail]: as many as announced, or all
    that are left. *)
Definition spans (n : Z) (p tail : list Z) : Prop := n = zlen p \/ (zlen p < n /\ tail = []).

(** What an optional field shows once its presence flag is set. *)
Definition shown (t : ety) (x : sval) : sval :=
  match x with SvSome y => SvSome y | _ => SvSome (sdefault t) end.

(** The value decoding starts from in an optional field, and in a oneof member. *)
Definition opt_start (t : ety) (x : sval) : sval := match x with SvSome y => y | _ => sdefault t end.
Definition member_start (num : Z) (t : ety) (o : Z * sval) : sval :=
  if num =? fst o then opt_start t (snd o) else sdefault t.

(** What a oneof shows after reading member [num]. *)
Definition member_result (e : err) (num : Z) (x : sval) : Z * sval :=
  match e with NoErrors => (num, SvSome x) | _ => (0, SvNone) end.

(** [eread t old bs e new rest]: an element with value [old] is read from the bytes [bs] (from behind
    the tag to the end of the available bytes); the result is [e], the element then shows [new] and
    [rest] is unread.
    [mread]: the same for the records of a message, [rread]: for its first record, [fread]: for the
    body of a record of a field of the given kind, found with wire type [w].
    A repeated string or bytes field that refuses a new element has grown by one element all the same;
    its content [x] is whatever that place of the array held before. [d] = true excludes this one
    case, in which the outcome does not follow from the values shown before.
    [bd] = true: the buffer knows where its bytes end ([reader_bounded] in Contracts.v) and therefore
    skips to the end when an unknown record announces more than is left. This is so inside a nested
    message that is completely there. *)
Inductive eread (d bd : bool) : ety -> sval -> list Z -> err -> sval -> list Z -> Prop :=
| eread_scalar sc old c z rest : scalar_reads sc c z ->
    eread d bd (EScalar sc) old (c ++ rest) NoErrors (SvZ z) rest
| eread_scalar_fails sc old bs e rest : scalar_fails sc bs e rest -> eread d bd (EScalar sc) old bs e old rest
| eread_length t old bs e rest : is_packed t = false -> varint_fails 5 bs e rest ->
    eread d bd t old bs e old rest
| eread_bytes st max old l p rest : varint32 l (zlen p) -> zlen p <= max ->
    eread d bd (EBytes st max) old (l ++ p ++ rest) NoErrors (SvB p) rest
| eread_too_long st max old l n rest : varint32 l n -> max < n ->
    eread d bd (EBytes st max) old (l ++ rest) ArrayFull old rest
| eread_cut st max old l n p : varint32 l n -> zlen p < n <= max ->
    eread d bd (EBytes st max) old (l ++ p) EndOfBuffer (SvB p) []
| eread_msg fs os old l n p e new rest tail : varint32 l n -> spans n p tail ->
    mread d (bd || (n =? zlen p)) fs os old p e new rest ->
    eread d bd (EMsg fs os) old (l ++ p ++ tail) e new (rest ++ tail)
with mread (d bd : bool) : list fdesc -> list odesc -> sval -> list Z -> err -> sval -> list Z -> Prop :=
(** No bytes are left, or only the beginning of a tag. *)
| mread_end fs os vs ovs bs : varint_fails 5 bs EndOfBuffer [] ->
    mread d bd fs os (SvM vs ovs) bs NoErrors (SvM vs ovs) []
| mread_tag_overlong fs os vs ovs bs rest : varint_fails 5 bs OverlongVarint rest ->
    mread d bd fs os (SvM vs ovs) bs OverlongVarint (SvM vs ovs) rest
| mread_tag_wiretype fs os vs ovs tg n rest : varint32 tg n -> 5 < n mod 8 ->
    mread d bd fs os (SvM vs ovs) (tg ++ rest) InvalidWiretype (SvM vs ovs) rest
| mread_stop fs os old bs e new rest : rread d bd fs os old bs e new rest -> e <> NoErrors ->
    mread d bd fs os old bs e new rest
| mread_next fs os old bs mid bs' e new rest : rread d bd fs os old bs NoErrors mid bs' ->
    mread d bd fs os mid bs' e new rest -> mread d bd fs os old bs e new rest
with rread (d bd : bool) : list fdesc -> list odesc -> sval -> list Z -> err -> sval -> list Z -> Prop :=
| rread_zero fs os vs ovs tg w rest : varint32 tg (wt_code w) ->
    rread d bd fs os (SvM vs ovs) (tg ++ rest) InvalidFieldId (SvM vs ovs) rest
| rread_field fs os vs ovs i num k t x tg w bs e x' rest :
    nth_error fs i = Some (num, k, t) -> nth_error vs i = Some x ->
    varint32 tg (num * 8 + wt_code w) -> fread d bd k t w x bs e x' rest ->
    rread d bd fs os (SvM vs ovs) (tg ++ bs) e (SvM (upd i x' vs) ovs) rest
| rread_oneof_wiretype fs os vs ovs j ms num t o tg w bs :
    nth_error os j = Some ms -> lookup ms num = Some t -> nth_error ovs j = Some o ->
    varint32 tg (num * 8 + wt_code w) -> w <> elem_wiretype t ->
    rread d bd fs os (SvM vs ovs) (tg ++ bs) InvalidWiretype (SvM vs (upd j (0, SvNone) ovs)) bs
| rread_oneof fs os vs ovs j ms num t o tg bs e x' rest :
    nth_error os j = Some ms -> lookup ms num = Some t -> nth_error ovs j = Some o ->
    varint32 tg (num * 8 + wt_code (elem_wiretype t)) ->
    eread d bd t (member_start num t o) bs e x' rest ->
    rread d bd fs os (SvM vs ovs) (tg ++ bs) e (SvM vs (upd j (member_result e num x') ovs)) rest
| rread_unknown fs os vs ovs num tg w r rest :
    ~ In num (field_numbers fs os) -> 0 < num ->
    varint32 tg (num * 8 + wt_code w) -> skippable w r ->
    rread d bd fs os (SvM vs ovs) (tg ++ r ++ rest) NoErrors (SvM vs ovs) rest
| rread_unknown_fails fs os vs ovs num tg w bs e rest :
    ~ In num (field_numbers fs os) -> 0 < num ->
    varint32 tg (num * 8 + wt_code w) -> skip_fails w bs e rest ->
    rread d bd fs os (SvM vs ovs) (tg ++ bs) e (SvM vs ovs) rest
| rread_unknown_rest fs os vs ovs num tg l n p : bd = true ->
    ~ In num (field_numbers fs os) -> 0 < num -> varint32 tg (num * 8 + wt_code LENDEL) ->
    varint32 l n -> zlen p < n ->
    rread d bd fs os (SvM vs ovs) (tg ++ l ++ p) NoErrors (SvM vs ovs) []
(** Start and end tags of groups are skipped, what is between them is not. *)
| rread_unknown_group fs os vs ovs num tg w rest :
    ~ In num (field_numbers fs os) -> 0 < num -> w = STARTGROUP \/ w = ENDGROUP ->
    varint32 tg (num * 8 + wt_code w) ->
    rread d bd fs os (SvM vs ovs) (tg ++ rest) NoErrors (SvM vs ovs) rest
with fread (d bd : bool) : fkind -> ety -> wiretype -> sval -> list Z -> err -> sval -> list Z -> Prop :=
| fread_plain_wiretype t w x bs : w <> elem_wiretype t -> fread d bd KPlain t w x bs InvalidWiretype x bs
| fread_opt_wiretype t w x bs : w <> elem_wiretype t ->
    fread d bd KOpt t w x bs InvalidWiretype (shown t x) bs
| fread_rep_wiretype max t w x bs : w <> LENDEL -> fread d bd (KRep max) t w x bs InvalidWiretype x bs
| fread_plain t x bs e x' rest : eread d bd t x bs e x' rest ->
    fread d bd KPlain t (elem_wiretype t) x bs e x' rest
| fread_opt t x bs e x' rest : eread d bd t (opt_start t x) bs e x' rest ->
    fread d bd KOpt t (elem_wiretype t) x bs e (SvSome x') rest
(** Of a field dropped for recursion only the tag is skipped. *)
| fread_recursive t w x bs : fread d bd KRecursive t w x bs NoErrors x bs
| fread_rep_full max t old bs : is_packed t = false -> zlen old = max ->
    fread d bd (KRep max) t LENDEL (SvR old) bs ArrayFull (SvR old) bs
| fread_rep_msg_length max fs os old bs e rest : zlen old < max -> varint_fails 5 bs e rest ->
    fread d bd (KRep max) (EMsg fs os) LENDEL (SvR old) bs e (SvR old) rest
| fread_rep_msg max fs os old l n p e new rest tail : zlen old < max -> varint32 l n -> spans n p tail ->
    mread d (bd || (n =? zlen p)) fs os (sdefault (EMsg fs os)) p e new rest ->
    fread d bd (KRep max) (EMsg fs os) LENDEL (SvR old) (l ++ p ++ tail) e (SvR (old ++ [new])) (rest ++ tail)
| fread_rep_bytes max st cap old l p rest : zlen old < max -> varint32 l (zlen p) -> zlen p <= cap ->
    fread d bd (KRep max) (EBytes st cap) LENDEL (SvR old) (l ++ p ++ rest) NoErrors (SvR (old ++ [SvB p])) rest
| fread_rep_bytes_cut max st cap old l n p : zlen old < max -> varint32 l n -> zlen p < n <= cap ->
    fread d bd (KRep max) (EBytes st cap) LENDEL (SvR old) (l ++ p) EndOfBuffer (SvR (old ++ [SvB p])) []
| fread_rep_bytes_length max st cap old x bs e rest : d = false -> zlen old < max ->
    varint_fails 5 bs e rest ->
    fread d bd (KRep max) (EBytes st cap) LENDEL (SvR old) bs e (SvR (old ++ [SvB x])) rest
| fread_rep_bytes_too_long max st cap old x l n rest : d = false -> zlen old < max ->
    varint32 l n -> cap < n ->
    fread d bd (KRep max) (EBytes st cap) LENDEL (SvR old) (l ++ rest) ArrayFull (SvR (old ++ [SvB x])) rest
(** A length that cannot be read is taken for 0. *)
| fread_packed_length max sc old bs e rest : varint_fails 5 bs e rest ->
    fread d bd (KRep max) (EScalar sc) LENDEL (SvR old) bs NoErrors (SvR old) rest
(** A beginning [r] of an element at the end of the payload is dropped. *)
| fread_packed max sc old l n q zs r tail : varint32 l n -> spans n (q ++ r) tail -> packed_reads sc q zs ->
    zlen old + zlen zs <= max -> scalar_fails sc r EndOfBuffer [] ->
    fread d bd (KRep max) (EScalar sc) LENDEL (SvR old) (l ++ (q ++ r) ++ tail) NoErrors
      (SvR (old ++ map SvZ zs)) tail
| fread_packed_fails max sc old l n q zs r e rest tail : varint32 l n -> spans n (q ++ r) tail ->
    packed_reads sc q zs -> zlen old + zlen zs <= max -> scalar_fails sc r e rest -> e <> EndOfBuffer ->
    fread d bd (KRep max) (EScalar sc) LENDEL (SvR old) (l ++ (q ++ r) ++ tail) e
      (SvR (old ++ map SvZ zs)) (rest ++ tail)
| fread_packed_full max sc old l n q zs c z r tail : varint32 l n -> spans n (q ++ c ++ r) tail ->
    packed_reads sc q zs -> zlen old + zlen zs = max -> scalar_reads sc c z ->
    fread d bd (KRep max) (EScalar sc) LENDEL (SvR old) (l ++ (q ++ c ++ r) ++ tail) ArrayFull
      (SvR (old ++ map SvZ zs)) (r ++ tail).

Scheme eread_ind2 := Induction for eread Sort Prop
with mread_ind2 := Induction for mread Sort Prop
with rread_ind2 := Induction for rread Sort Prop
with fread_ind2 := Induction for fread Sort Prop.
Combined Scheme read_ind from eread_ind2, mread_ind2, rread_ind2, fread_ind2.

(** An unknown length-delimited record announces more bytes than there are, and so does every nested
    message that contains it: the input ends in the middle of an unknown record. What happens then
    depends on the buffer: [mread] does not cover it. *)
Inductive eover : ety -> sval -> list Z -> Prop :=
| eover_msg fs os old l n p : varint32 l n -> zlen p < n -> mover fs os old p ->
    eover (EMsg fs os) old (l ++ p)
with mover : list fdesc -> list odesc -> sval -> list Z -> Prop :=
| mover_here fs os vs ovs num tg l n p :
    ~ In num (field_numbers fs os) -> 0 < num -> varint32 tg (num * 8 + wt_code LENDEL) ->
    varint32 l n -> zlen p < n -> mover fs os (SvM vs ovs) (tg ++ l ++ p)
| mover_plain fs os vs ovs i num t x tg bs :
    nth_error fs i = Some (num, KPlain, t) -> nth_error vs i = Some x ->
    varint32 tg (num * 8 + wt_code LENDEL) -> eover t x bs -> mover fs os (SvM vs ovs) (tg ++ bs)
| mover_opt fs os vs ovs i num t x tg bs :
    nth_error fs i = Some (num, KOpt, t) -> nth_error vs i = Some x ->
    varint32 tg (num * 8 + wt_code LENDEL) -> eover t (opt_start t x) bs ->
    mover fs os (SvM vs ovs) (tg ++ bs)
| mover_rep fs os vs ovs i num max t old tg bs :
    nth_error fs i = Some (num, KRep max, t) -> nth_error vs i = Some (SvR old) -> zlen old < max ->
    varint32 tg (num * 8 + wt_code LENDEL) -> eover t (sdefault t) bs ->
    mover fs os (SvM vs ovs) (tg ++ bs)
| mover_oneof fs os vs ovs j ms num t o tg bs :
    nth_error os j = Some ms -> lookup ms num = Some t -> nth_error ovs j = Some o ->
    varint32 tg (num * 8 + wt_code LENDEL) -> eover t (member_start num t o) bs ->
    mover fs os (SvM vs ovs) (tg ++ bs)
| mover_next fs os old bs mid bs' : rread false false fs os old bs NoErrors mid bs' ->
    mover fs os mid bs' -> mover fs os old bs.

(** Groups: any records whose field numbers the type does not have, bracketed by start and end tags,
    nested to any depth. *)
Inductive unknown_groups (fs : list fdesc) (os : list odesc) : list Z -> Prop :=
| ug_nil : unknown_groups fs os []
| ug_record num w tg bs us :
    ~ In num (field_numbers fs os) -> 0 < num ->
    varint32 tg (num * 8 + wt_code w) -> skippable w bs ->
    unknown_groups fs os us -> unknown_groups fs os ((tg ++ bs) ++ us)
| ug_group num tg inner tg' us :
    ~ In num (field_numbers fs os) -> 0 < num ->
    varint32 tg (num * 8 + wt_code STARTGROUP) -> unknown_groups fs os inner ->
    varint32 tg' (num * 8 + wt_code ENDGROUP) -> unknown_groups fs os us ->
    unknown_groups fs os (tg ++ inner ++ tg' ++ us).

(** A value stored in a plain field or in a present optional field. *)
Definition stored (k : fkind) (x : sval) : sval := match k with KOpt => SvSome x | _ => x end.

(** The value decoding of a plain or optional field starts from. *)
Definition field_start (k : fkind) (t : ety) (x : sval) : sval :=
  match k with KOpt => opt_start t x | _ => x end.

(** The wire type of the records of a field. *)
Definition field_wiretype (k : fkind) (t : ety) : wiretype :=
  match k with KRep _ => LENDEL | _ => elem_wiretype t end.
