(** * Spec: what the wire format and the API are supposed to mean.

    Written from the protobuf encoding documentation, in plain arithmetic; nothing in this file
    mentions the functions of the model (only its data types from Base and Schema). *)
From Verif Require Import Base Schema.

(* ------------------------------------------------------------------------------------------- *)
(** ** Primitive encodings *)

(** Canonical base-128 varint: 7-bit groups, least significant first, top bit on all but the last.
    Ten groups are enough for 64-bit values. *)
Fixpoint varint_groups (k : nat) (n : Z) : list Z :=
  match k with
  | O => []
  | S k' => if n <? 128 then [n] else (128 + n mod 128) :: varint_groups k' (n / 128)
  end.
Definition varint (n : Z) : list Z := varint_groups 10 n.

(** The number a group sequence stands for. *)
Fixpoint varint_value (bs : list Z) : Z :=
  match bs with
  | [] => 0
  | b :: bs' => b mod 128 + 128 * varint_value bs'
  end.

(** A terminated varint of at most [k] bytes: all bytes but the last have the top bit, the last has
    not. Not necessarily canonical (zero groups may be appended). *)
Definition varint_wf (k : nat) (bs : list Z) : Prop :=
  exists init last, bs = init ++ [last] /\ (length bs <= k)%nat
                    /\ Forall (fun b => 128 <= b < 256) init /\ 0 <= last < 128.

(** ZigZag: 0, -1, 1, -2, ... -> 0, 1, 2, 3, ... *)
Definition zigzag (n : Z) : Z := if 0 <=? n then 2 * n else - (2 * n) - 1.
Definition unzigzag (n : Z) : Z := if n mod 2 =? 0 then n / 2 else - ((n + 1) / 2).

(** Two's complement reading of the low [w] bits. *)
Definition to_signed (w n : Z) : Z :=
  if n mod 2 ^ w <? 2 ^ (w - 1) then n mod 2 ^ w else n mod 2 ^ w - 2 ^ w.

(** Little-endian bytes. *)
Fixpoint le (k : nat) (n : Z) : list Z :=
  match k with O => [] | S k' => n mod 256 :: le k' (n / 256) end.

Fixpoint le_value (bs : list Z) : Z :=
  match bs with [] => 0 | b :: bs' => b + 256 * le_value bs' end.

(** Field tag. *)
Definition tag (num : Z) (w : wiretype) : list Z := varint (num * 8 + wt_code w).

(** Length-delimited record body. *)
Definition delimited (payload : list Z) : list Z := varint (zlen payload) ++ payload.

(* ------------------------------------------------------------------------------------------- *)
(** ** Scalars *)

(** The values a C++ variable of the type can have. *)
Definition scalar_range (sc : scalar) (z : Z) : Prop :=
  match sc with
  | Int32 | SInt32 | SFixed32 => - 2 ^ 31 <= z < 2 ^ 31
  | Int64 | SInt64 | SFixed64 => - 2 ^ 63 <= z < 2 ^ 63
  | UInt32 | Enumeration | Fixed32 | FloatFixed => 0 <= z < 2 ^ 32
  | UInt64 | Fixed64 | DoubleFixed => 0 <= z < 2 ^ 64
  | Boolean => z = 0 \/ z = 1
  end.

Definition scalar_enc (sc : scalar) (z : Z) : list Z :=
  match sc with
  | Int32 | Enumeration => varint (z mod 2 ^ 32)
  | Int64 => varint (z mod 2 ^ 64)
  | UInt32 | UInt64 | Boolean => varint z
  | SInt32 | SInt64 => varint (zigzag z)
  | Fixed32 | FloatFixed => le 4 z
  | Fixed64 | DoubleFixed => le 8 z
  | SFixed32 => le 4 (z mod 2 ^ 32)
  | SFixed64 => le 8 (z mod 2 ^ 64)
  end.

(** [scalar_dec sc bs z]: the bytes [bs] are an acceptable encoding of the value z. Varints need not
    be canonical. The reader accepts up to 10 bytes for int32/int64/sint32/sint64/uint64, 5 for
    uint32 and enums, and a single byte for bool. *)
Definition scalar_dec (sc : scalar) (bs : list Z) (z : Z) : Prop :=
  match sc with
  | Int32 => varint_wf 10 bs /\ z = to_signed 32 (varint_value bs)
  | Int64 => varint_wf 10 bs /\ z = to_signed 64 (varint_value bs)
  | UInt32 | Enumeration => varint_wf 5 bs /\ z = varint_value bs mod 2 ^ 32
  | UInt64 => varint_wf 10 bs /\ z = varint_value bs mod 2 ^ 64
  | SInt32 => varint_wf 10 bs /\ z = unzigzag (varint_value bs mod 2 ^ 32)
  | SInt64 => varint_wf 10 bs /\ z = unzigzag (varint_value bs mod 2 ^ 64)
  | Boolean => varint_wf 1 bs /\ z = (if varint_value bs =? 0 then 0 else 1)
  | Fixed32 | FloatFixed => length bs = 4%nat /\ Forall is_byte bs /\ z = le_value bs
  | Fixed64 | DoubleFixed => length bs = 8%nat /\ Forall is_byte bs /\ z = le_value bs
  | SFixed32 => length bs = 4%nat /\ Forall is_byte bs /\ z = to_signed 32 (le_value bs)
  | SFixed64 => length bs = 8%nat /\ Forall is_byte bs /\ z = to_signed 64 (le_value bs)
  end.

(** The concatenation of encodings of the given values. *)
Inductive packed_dec (sc : scalar) : list Z -> list Z -> Prop :=
| packed_nil : packed_dec sc [] []
| packed_cons bs z rest zs :
    scalar_dec sc bs z -> packed_dec sc rest zs -> packed_dec sc (bs ++ rest) (z :: zs).

(** Numerically equal to the proto3 default: 0, false, 0.0 and -0.0. *)
Definition is_zero (sc : scalar) (z : Z) : bool :=
  match sc with
  | FloatFixed => (z =? 0) || (z =? 2 ^ 31)
  | DoubleFixed => (z =? 0) || (z =? 2 ^ 63)
  | _ => z =? 0
  end.

(* ------------------------------------------------------------------------------------------- *)
(** ** Observable message values *)

(** What the getters of an object show: a scalar, the first get_length() bytes of a string, the
    first get_length() elements of a repeated field, an optional field (absent or present with
    value), a message with its fields and oneofs. A oneof is (0, SvNone) when not set and
    (number, SvSome value) otherwise. *)
Inductive sval : Type :=
| SvZ (z : Z)
| SvB (bytes : list Z)
| SvR (elems : list sval)
| SvNone
| SvSome (v : sval)
| SvM (fields : list sval) (oneofs : list (Z * sval)).

(** Value of a freshly constructed object. *)
Definition sdefault_field (k : fkind) (d : sval) : sval :=
  match k with KPlain => d | KOpt => SvNone | KRep _ => SvR [] | KRecursive => SvNone end.

Fixpoint sdefault (t : ety) : sval :=
  match t with
  | EScalar _ => SvZ 0
  | EBytes _ _ => SvB []
  | EMsg fs os => SvM (map (fun '(_, k, t) => sdefault_field k (sdefault t)) fs)
                      (map (fun _ => (0, SvNone)) os)
  end.

(** has_<field>(): presence bit of the i-th optional field. *)
Definition present (pres : list Z) (i : Z) : bool :=
  Z.testbit (nth (Z.to_nat (i / 32)) pres 0) (i mod 32).

(** The getters of one field; [i] numbers the optional fields. *)
Definition view_field (k : fkind) (vw : value -> sval) (i : Z) (pres : list Z) (v : value) : sval :=
  match k with
  | KPlain => vw v
  | KOpt => if present pres i then SvSome (vw v) else SvNone
  | KRep _ => match v with
              | VR len data => SvR (map vw (firstn (Z.to_nat len) data))
              | _ => SvNone
              end
  | KRecursive => SvNone
  end.

Definition succ_opt (k : fkind) (i : Z) : Z := match k with KOpt => i + 1 | _ => i end.

Fixpoint view_fields (fs : list (fkind * (value -> sval))) (i : Z) (pres : list Z) (vs : list value)
  : list sval :=
  match fs, vs with
  | (k, vw) :: fs', v :: vs' => view_field k vw i pres v :: view_fields fs' (succ_opt k i) pres vs'
  | _, _ => []
  end.

(** The entry with a given number in a list of oneof members. *)
Fixpoint lookup {X} (ms : list (Z * X)) (id : Z) : option X :=
  match ms with
  | [] => None
  | (num, x) :: ms' => if num =? id then Some x else lookup ms' id
  end.

Definition view_oneof (ms : list (Z * (value -> sval))) (o : Z * value) : Z * sval :=
  match lookup ms (fst o) with
  | Some vw => (fst o, SvSome (vw (snd o)))
  | None => (0, SvNone)
  end.

Fixpoint view_oneofs (os : list (list (Z * (value -> sval)))) (vs : list (Z * value))
  : list (Z * sval) :=
  match os, vs with
  | ms :: os', o :: vs' => view_oneof ms o :: view_oneofs os' vs'
  | _, _ => []
  end.

Fixpoint view (t : ety) (v : value) : sval :=
  match t with
  | EScalar _ => match v with VS z => SvZ z | _ => SvNone end
  | EBytes _ _ => match v with VB len data => SvB (firstn (Z.to_nat len) data) | _ => SvNone end
  | EMsg fs os =>
      match v with
      | VM pres vs ovs =>
          SvM (view_fields (map (fun '(_, k, t) => (k, view t)) fs) 0 pres vs)
              (view_oneofs (map (map (fun '(num, t) => (num, view t))) os) ovs)
      | _ => SvNone
      end
  end.

(* ------------------------------------------------------------------------------------------- *)
(** ** Encoding of a message value *)

(** Record(s) of one element with payload [p] (always written). *)
Definition enc_elem (num : Z) (t : ety) (p : list Z) : list Z :=
  match t with
  | EScalar sc => tag num (scalar_wiretype sc) ++ p
  | _ => tag num LENDEL ++ delimited p
  end.

(** Records of one field. *)
Definition enc_field (num : Z) (k : fkind) (t : ety) (e : sval -> list Z) (v : sval) : list Z :=
  match k, v with
  | KPlain, _ =>
      match t, v with
      | EScalar sc, SvZ z => if is_zero sc z then [] else enc_elem num t (e v)
      | _, _ => match e v with [] => [] | p => enc_elem num t p end
      end
  | KOpt, SvSome x => enc_elem num t (e x)
  | KRep _, SvR l =>
      match t with
      | EScalar _ => match l with
                     | [] => []
                     | _ => tag num LENDEL ++ delimited (flat_map e l)
                     end
      | _ => flat_map (fun x => enc_elem num t (e x)) l
      end
  | _, _ => []
  end.

Fixpoint enc_fields (fs : list (Z * fkind * ety * (sval -> list Z))) (vs : list sval) : list Z :=
  match fs, vs with
  | (num, k, t, e) :: fs', v :: vs' => enc_field num k t e v ++ enc_fields fs' vs'
  | _, _ => []
  end.

Definition enc_oneof (ms : list (Z * (ety * (sval -> list Z)))) (o : Z * sval) : list Z :=
  match lookup ms (fst o), snd o with
  | Some (t, e), SvSome x => enc_elem (fst o) t (e x)
  | _, _ => []
  end.

Fixpoint enc_oneofs (os : list (list (Z * (ety * (sval -> list Z))))) (vs : list (Z * sval))
  : list Z :=
  match os, vs with
  | ms :: os', o :: vs' => enc_oneof ms o ++ enc_oneofs os' vs'
  | _, _ => []
  end.

(** Payload of an element: fields in declaration order, then the oneofs. *)
Fixpoint enc (t : ety) (v : sval) : list Z :=
  match t with
  | EScalar sc => match v with SvZ z => scalar_enc sc z | _ => [] end
  | EBytes _ _ => match v with SvB bs => bs | _ => [] end
  | EMsg fs os =>
      match v with
      | SvM vs ovs =>
          enc_fields (map (fun '(num, k, t) => (num, k, t, enc t)) fs) vs
          ++ enc_oneofs (map (map (fun '(num, t) => (num, (t, enc t)))) os) ovs
      | _ => []
      end
  end.

(** The value up to the sign of zeros in plain float/double fields, which are not written. *)
Definition norm_field (k : fkind) (t : ety) (n : sval -> sval) (v : sval) : sval :=
  match k, v with
  | KPlain, SvZ z => match t with
                     | EScalar sc => if is_zero sc z then SvZ 0 else v
                     | _ => v
                     end
  | KPlain, _ => n v
  | KOpt, SvSome x => SvSome (n x)
  | KRep _, SvR l => SvR (map n l)
  | _, _ => v
  end.

Fixpoint norm_fields (fs : list (fkind * ety * (sval -> sval))) (vs : list sval) : list sval :=
  match fs, vs with
  | (k, t, n) :: fs', v :: vs' => norm_field k t n v :: norm_fields fs' vs'
  | _, _ => []
  end.

Definition norm_oneof (ms : list (Z * (sval -> sval))) (o : Z * sval) : Z * sval :=
  match lookup ms (fst o), snd o with
  | Some n, SvSome x => (fst o, SvSome (n x))
  | _, _ => o
  end.

Fixpoint norm_oneofs (os : list (list (Z * (sval -> sval)))) (vs : list (Z * sval))
  : list (Z * sval) :=
  match os, vs with
  | ms :: os', o :: vs' => norm_oneof ms o :: norm_oneofs os' vs'
  | _, _ => []
  end.

Fixpoint norm (t : ety) (v : sval) : sval :=
  match t with
  | EMsg fs os =>
      match v with
      | SvM vs ovs => SvM (norm_fields (map (fun '(_, k, t) => (k, t, norm t)) fs) vs)
                          (norm_oneofs (map (map (fun '(num, t) => (num, norm t))) os) ovs)
      | _ => v
      end
  | _ => v
  end.

(* ------------------------------------------------------------------------------------------- *)
(** ** Decoding: merging a byte string into a message value *)

(** A varint of at most 5 bytes with 32-bit value n (tags and lengths). *)
Definition varint32 (bs : list Z) (n : Z) : Prop :=
  varint_wf 5 bs /\ varint_value bs mod 2 ^ 32 = n.

(** The wire type a record of this element type has, and the body for a given payload. *)
Definition elem_wiretype (t : ety) : wiretype :=
  match t with EScalar sc => scalar_wiretype sc | _ => LENDEL end.

Definition body (t : ety) (payload bs : list Z) : Prop :=
  match t with
  | EScalar _ => bs = payload
  | _ => exists l, varint32 l (zlen payload) /\ bs = l ++ payload
  end.

(** All field numbers of a message type. *)
Definition field_numbers (fs : list fdesc) (os : list odesc) : list Z :=
  map (fun '(num, _, _) => num) fs ++ flat_map (map fst) os.

(** The body of a record that can be skipped without knowing the field. *)
Inductive skippable : wiretype -> list Z -> Prop :=
| skip_varint bs : varint_wf 10 bs -> skippable VARINT bs
| skip_fixed32 bs : length bs = 4%nat -> Forall is_byte bs -> skippable FIXED32 bs
| skip_fixed64 bs : length bs = 8%nat -> Forall is_byte bs -> skippable FIXED64 bs
| skip_lendel l p : varint32 l (zlen p) -> Forall is_byte p -> skippable LENDEL (l ++ p).

(** [edecu u t old p new]: payload [p] merged into the element value [old] gives [new].
    [mdecu u fs os old bs new]: the records in [bs], in order.
    [rdecu u fs os old r new]: one record.
    [u] says whether records of fields that the message type does not have may occur; the short
    names below allow them. *)
Inductive edecu (u : bool) : ety -> sval -> list Z -> sval -> Prop :=
| edec_scalar sc old p z :
    scalar_dec sc p z -> edecu u (EScalar sc) old p (SvZ z)
| edec_bytes st max old p :
    zlen p <= max -> Forall is_byte p -> edecu u (EBytes st max) old p (SvB p)
| edec_msg fs os old p new :
    mdecu u fs os old p new -> edecu u (EMsg fs os) old p new
with mdecu (u : bool) : list fdesc -> list odesc -> sval -> list Z -> sval -> Prop :=
| mdec_nil fs os vs ovs : mdecu u fs os (SvM vs ovs) [] (SvM vs ovs)
| mdec_cons fs os v0 r v1 bs v2 :
    rdecu u fs os v0 r v1 -> mdecu u fs os v1 bs v2 -> mdecu u fs os v0 (r ++ bs) v2
with rdecu (u : bool) : list fdesc -> list odesc -> sval -> list Z -> sval -> Prop :=
| rdec_plain fs os vs ovs i num t tg p bs old new :
    nth_error fs i = Some (num, KPlain, t) -> nth_error vs i = Some old ->
    varint32 tg (num * 8 + wt_code (elem_wiretype t)) -> body t p bs ->
    edecu u t old p new ->
    rdecu u fs os (SvM vs ovs) (tg ++ bs) (SvM (upd i new vs) ovs)
| rdec_opt_absent fs os vs ovs i num t tg p bs new :
    nth_error fs i = Some (num, KOpt, t) -> nth_error vs i = Some SvNone ->
    varint32 tg (num * 8 + wt_code (elem_wiretype t)) -> body t p bs ->
    edecu u t (sdefault t) p new ->
    rdecu u fs os (SvM vs ovs) (tg ++ bs) (SvM (upd i (SvSome new) vs) ovs)
| rdec_opt_present fs os vs ovs i num t tg p bs old new :
    nth_error fs i = Some (num, KOpt, t) -> nth_error vs i = Some (SvSome old) ->
    varint32 tg (num * 8 + wt_code (elem_wiretype t)) -> body t p bs ->
    edecu u t old p new ->
    rdecu u fs os (SvM vs ovs) (tg ++ bs) (SvM (upd i (SvSome new) vs) ovs)
| rdec_packed fs os vs ovs i num max sc tg p l zs old :
    nth_error fs i = Some (num, KRep max, EScalar sc) -> nth_error vs i = Some (SvR old) ->
    varint32 tg (num * 8 + wt_code LENDEL) -> varint32 l (zlen p) ->
    packed_dec sc p zs -> zlen old + zlen zs <= max ->
    rdecu u fs os (SvM vs ovs) (tg ++ l ++ p) (SvM (upd i (SvR (old ++ map SvZ zs)) vs) ovs)
| rdec_repeated fs os vs ovs i num max t tg p l old new :
    nth_error fs i = Some (num, KRep max, t) -> nth_error vs i = Some (SvR old) ->
    is_packed t = false ->
    varint32 tg (num * 8 + wt_code LENDEL) -> varint32 l (zlen p) ->
    edecu u t (sdefault t) p new -> zlen old + 1 <= max ->
    rdecu u fs os (SvM vs ovs) (tg ++ l ++ p) (SvM (upd i (SvR (old ++ [new])) vs) ovs)
| rdec_oneof_same fs os vs ovs j num t ms tg p bs old new :
    nth_error os j = Some ms -> lookup ms num = Some t ->
    nth_error ovs j = Some (num, SvSome old) ->
    varint32 tg (num * 8 + wt_code (elem_wiretype t)) -> body t p bs ->
    edecu u t old p new ->
    rdecu u fs os (SvM vs ovs) (tg ++ bs) (SvM vs (upd j (num, SvSome new) ovs))
| rdec_oneof_other fs os vs ovs j num t ms tg p bs which old new :
    nth_error os j = Some ms -> lookup ms num = Some t ->
    nth_error ovs j = Some (which, old) -> which <> num ->
    varint32 tg (num * 8 + wt_code (elem_wiretype t)) -> body t p bs ->
    edecu u t (sdefault t) p new ->
    rdecu u fs os (SvM vs ovs) (tg ++ bs) (SvM vs (upd j (num, SvSome new) ovs))
| rdec_unknown fs os vs ovs num w tg bs :
    ~ In num (field_numbers fs os) -> 0 < num ->
    varint32 tg (num * 8 + wt_code w) -> skippable w bs -> u = true ->
    rdecu u fs os (SvM vs ovs) (tg ++ bs) (SvM vs ovs).

Arguments edec_scalar {u}.
Arguments edec_bytes {u}.
Arguments edec_msg {u}.
Arguments mdec_nil {u}.
Arguments mdec_cons {u}.
Arguments rdec_plain {u}.
Arguments rdec_opt_absent {u}.
Arguments rdec_opt_present {u}.
Arguments rdec_packed {u}.
Arguments rdec_repeated {u}.
Arguments rdec_oneof_same {u}.
Arguments rdec_oneof_other {u}.
Arguments rdec_unknown {u}.

Notation edec := (edecu true).
Notation mdec := (mdecu true).
Notation rdec := (rdecu true).

(* ------------------------------------------------------------------------------------------- *)
(** ** Well-formed types and objects *)

Definition all {A} (P : A -> Prop) : list A -> Prop :=
  fix go l := match l with [] => True | x :: l' => P x /\ go l' end.

Definition all2 {A B} (P : A -> B -> Prop) : list A -> list B -> Prop :=
  fix go l l' := match l, l' with
                 | [], [] => True
                 | x :: l1, y :: l2 => P x y /\ go l1 l2
                 | _, _ => False
                 end.

(** What protoc and the user guarantee about a message type: legal, distinct field numbers and
    capacities of at least one element and below 2^31. *)
Definition capacity_ok (max : Z) : Prop := 0 < max < 2 ^ 31.

Fixpoint desc_ok (t : ety) : Prop :=
  match t with
  | EScalar _ => True
  | EBytes _ max => capacity_ok max
  | EMsg fs os =>
      NoDup (field_numbers fs os)
      /\ all (fun n => 1 <= n < 2 ^ 29) (field_numbers fs os)
      /\ all (fun '(_, k, t) => desc_ok t /\ match k with KRep max => capacity_ok max | _ => True end) fs
      /\ all (all (fun '(_, t) => desc_ok t)) os
  end.

(** A valid object of the type: arrays have their declared size, lengths are within it, every scalar
    is initialised and in range, presence words are 32-bit, which_ names a member that is alive. *)
Definition wt_field (k : fkind) (wte : value -> Prop) (v : value) : Prop :=
  match k with
  | KPlain | KOpt => wte v
  | KRep max => match v with
                | VR len data => 0 <= len <= max /\ zlen data = max /\ all wte data
                | _ => False
                end
  | KRecursive => True
  end.

Definition wt_oneof (ms : list (Z * (value -> Prop))) (o : Z * value) : Prop :=
  match lookup ms (fst o) with
  | Some wte => wte (snd o)
  | None => fst o = 0
  end.

Fixpoint wt (t : ety) (v : value) : Prop :=
  match t with
  | EScalar sc => match v with VS z => scalar_range sc z | _ => False end
  | EBytes _ max => match v with
                    | VB len data => 0 <= len <= max /\ zlen data = max /\ all is_byte data
                    | _ => False
                    end
  | EMsg fs os =>
      match v with
      | VM pres vs ovs =>
          zlen pres = presence_size (n_optional fs) /\ all is_u32 pres
          /\ all2 (fun '(_, k, t) => wt_field k (wt t)) fs vs
          /\ all2 (fun ms => wt_oneof (map (fun '(num, t) => (num, wt t)) ms)) os ovs
      | _ => False
      end
  end.

(** No left-over data where the decoder will merge: in every repeated message field the elements
    behind get_length() are in their default state, and so are absent optional fields. *)
Definition clean_field (k : fkind) (t : ety) (cl : value -> Prop) (i : Z) (pres : list Z) (v : value)
  : Prop :=
  match k with
  | KPlain => cl v
  | KOpt => cl v /\ (present pres i = false -> view t v = sdefault t)
  | KRep _ => match v, t with
              | VR len data, EMsg _ _ =>
                  all (fun x => cl x /\ view t x = sdefault t) (skipn (Z.to_nat len) data)
              | _, _ => True
              end
  | KRecursive => True
  end.

Fixpoint clean_fields (fs : list (fkind * ety * (value -> Prop))) (i : Z) (pres : list Z)
    (vs : list value) : Prop :=
  match fs, vs with
  | (k, t, cl) :: fs', v :: vs' =>
      clean_field k t cl i pres v /\ clean_fields fs' (succ_opt k i) pres vs'
  | _, _ => True
  end.

Definition clean_oneof (ms : list (Z * (value -> Prop))) (o : Z * value) : Prop :=
  match lookup ms (fst o) with Some cl => cl (snd o) | None => True end.

Fixpoint clean (t : ety) (v : value) : Prop :=
  match t with
  | EScalar _ | EBytes _ _ => True
  | EMsg fs os =>
      match v with
      | VM pres vs ovs =>
          clean_fields (map (fun '(_, k, t) => (k, t, clean t)) fs) 0 pres vs
          /\ all2 (fun ms => clean_oneof (map (fun '(num, t) => (num, clean t)) ms)) os ovs
      | _ => True
      end
  end.

(** No string or bytes field anywhere in the type. *)
Fixpoint no_bytes (t : ety) : Prop :=
  match t with
  | EScalar _ => True
  | EBytes _ _ => False
  | EMsg fs os => all (fun '(_, _, t) => no_bytes t) fs /\ all (all (fun '(_, t) => no_bytes t)) os
  end.

(** No plain (neither optional nor repeated nor oneof) float or double field anywhere in the type. *)
Fixpoint no_plain_float (t : ety) : Prop :=
  match t with
  | EMsg fs os =>
      all (fun '(_, k, t) => match k, t with
                             | KPlain, EScalar FloatFixed | KPlain, EScalar DoubleFixed => False
                             | _, _ => no_plain_float t
                             end) fs
      /\ all (all (fun '(_, t) => no_plain_float t)) os
  | _ => True
  end.

(** No plain float or double field holds -0.0. *)
Definition no_neg_zero_field (k : fkind) (t : ety) (nz : sval -> Prop) (v : sval) : Prop :=
  match k, v with
  | KPlain, SvZ z => match t with EScalar sc => is_zero sc z = true -> z = 0 | _ => True end
  | KPlain, _ => nz v
  | KOpt, SvSome x => nz x
  | KRep _, SvR l => all nz l
  | _, _ => True
  end.

Definition no_neg_zero_oneof (ms : list (Z * (sval -> Prop))) (o : Z * sval) : Prop :=
  match lookup ms (fst o), snd o with
  | Some nz, SvSome x => nz x
  | _, _ => True
  end.

Fixpoint no_neg_zero (t : ety) (v : sval) : Prop :=
  match t with
  | EMsg fs os =>
      match v with
      | SvM vs ovs =>
          all2 (fun '(_, k, t) => no_neg_zero_field k t (no_neg_zero t)) fs vs
          /\ all2 (fun ms => no_neg_zero_oneof (map (fun '(num, t) => (num, no_neg_zero t)) ms)) os ovs
      | _ => True
      end
  | _ => True
  end.

(* ------------------------------------------------------------------------------------------- *)
(** ** Unknown fields *)

(** A sequence of complete records with field numbers the type does not have. *)
Inductive unknown_records (fs : list fdesc) (os : list odesc) : list Z -> Prop :=
| unknown_nil : unknown_records fs os []
| unknown_cons num w tg bs us :
    ~ In num (field_numbers fs os) -> 0 < num ->
    varint32 tg (num * 8 + wt_code w) -> skippable w bs ->
    unknown_records fs os us -> unknown_records fs os ((tg ++ bs) ++ us).

(** [padded fs os v0 bs v1 bs']: [bs] takes [v0] to [v1], and [bs'] is [bs] with any unknown records
    inserted between its records. *)
Inductive padded (fs : list fdesc) (os : list odesc) : sval -> list Z -> sval -> list Z -> Prop :=
| padded_nil vs ovs us : unknown_records fs os us -> padded fs os (SvM vs ovs) [] (SvM vs ovs) us
| padded_cons v0 r v1 bs v2 us bs' :
    unknown_records fs os us -> rdec fs os v0 r v1 -> padded fs os v1 bs v2 bs' ->
    padded fs os v0 (r ++ bs) v2 (us ++ r ++ bs').
