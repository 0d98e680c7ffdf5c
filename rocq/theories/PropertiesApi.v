(** * Properties C27 (reachability), C30-C32, C34-C37 and C39: the mutating API.

    A history is a list of calls ([op], Api.v) on one object, run one after the other by [run_ops],
    starting from a newly constructed object. [op_ok] (SpecApi.v) says which calls are legal C++, [acall]
    what each of them is supposed to do to the values the getters show. [UB]: an access outside an array,
    a read of an uninitialised or dead value. *)
From Verif Require Import Base Buffers Wire Schema Fields Message Api Spec SpecApi Contracts BufferProofs
  Samples DecodeSamples ApiProps ApiSamples AnyBuffer.

(** C27: every legal history of calls keeps the object valid and performs no undefined operation. With
    C27_decode_safe this makes decoding safe in every reachable state. The only way not to return is
    a decode that does not end (C28). *)
Theorem C27_reachable : forall ty ops fuel, oty_ok ty -> Forall (op_ok ty) ops ->
  match run_ops fuel ops ty (construct ty) with
  | Done v => owt ty v
  | UB => False
  | Fuel => Exists decodes ops
  end.
Proof. exact reachable_valid. Qed.
Print Assumptions C27_reachable.

Example C27_reachable_applies : oty_ok (OElem Outer) /\ Forall (op_ok (OElem Outer)) sample_ops
  /\ exists v, run_ops 20 sample_ops (OElem Outer) (construct (OElem Outer)) = Done v
     /\ view Outer v = SvM [SvZ 150; SvB [65; 66]; SvR [];
          SvR [SvM [SvZ 0; SvNone; SvB []] []; SvM [SvZ 0; SvSome (SvZ (-1)); SvB []] []; SvM [SvZ 7; SvNone; SvB []] []];
          SvSome (SvZ 0); SvM [SvZ 0; SvNone; SvB []] []] [(7, SvSome (SvZ 1))].
Proof. split; [exact Outer_ok|]. split; [exact sample_ops_ok|]. eexists. split; vm_compute; reflexivity. Qed.

(** C30: under every history of calls on a string or bytes field the length stays within the capacity
    and nothing is accessed out of bounds. *)
Theorem C30_length : forall st max ops fuel, let ty := OElem (EBytes st max) in
  capacity_ok max -> Forall (op_ok ty) ops ->
  exists len data, run_ops fuel ops ty (construct ty) = Done (VB len data)
    /\ 0 <= len <= max /\ zlen data = max.
Proof. exact bytes_history. Qed.
Print Assumptions C30_length.

(** set(ptr, len) stores exactly the bytes, or returns ARRAY_FULL and changes nothing. *)
Theorem C30_set : forall st max v src len fuel, let t := EBytes st max in
  capacity_ok max -> wt t v -> Forall is_byte src -> 0 <= len <= zlen src ->
  (len <= max -> exists v', run_op fuel (OpBytesSet src len) (OElem t) v = Done (NoErrors, v') /\ wt t v'
                          /\ view t v' = SvB (firstn (Z.to_nat len) src))
  /\ (max < len -> run_op fuel (OpBytesSet src len) (OElem t) v = Done (ArrayFull, v)).
Proof. exact bytes_set_exact. Qed.
Print Assumptions C30_set.

(** The other calls (C strings, indexed writes, set from another field, clear), after any history. *)
Theorem C30_calls : forall st max ops fuel v o, let ty := OElem (EBytes st max) in
  capacity_ok max -> Forall (op_ok ty) ops -> run_ops fuel ops ty (construct ty) = Done v -> op_ok ty o ->
  match run_op fuel o ty v with
  | Done (e, v') => owt ty v' /\ acall ty (oview ty v) o e (oview ty v')
  | UB => False
  | Fuel => decodes o
  end.
Proof. exact (fun st max => next_call (OElem (EBytes st max))). Qed.
Print Assumptions C30_calls.

(** a = b where b has another capacity: a has exactly b's bytes; or, when they do not fit, a keeps what it had, and
    nothing tells the caller. *)
Theorem C30_assign_other_capacity : forall st max max' v rhs bs, let t := EBytes st max in let t' := EBytes st max' in
  capacity_ok max -> wt t v -> wt t' rhs -> view t' rhs = SvB bs ->
  (zlen bs <= max -> exists v', bytes_assign_any v rhs = Done v' /\ wt t v' /\ view t v' = SvB bs)
  /\ (max < zlen bs -> bytes_assign_any v rhs = Done v).
Proof. exact bytes_assign_exact. Qed.
Print Assumptions C30_assign_other_capacity.

Example C30_assign_applies : capacity_ok 4 /\ wt (EBytes true 4) (VB 1 [7; 0; 0; 0])
  /\ wt (EBytes true 6) (VB 5 [1; 2; 3; 4; 5; 0]) /\ wt (EBytes true 6) (VB 2 [1; 2; 3; 4; 5; 0])
  /\ bytes_assign_any (VB 1 [7; 0; 0; 0]) (VB 5 [1; 2; 3; 4; 5; 0]) = Done (VB 1 [7; 0; 0; 0])
  /\ bytes_assign_any (VB 1 [7; 0; 0; 0]) (VB 2 [1; 2; 3; 4; 5; 0]) = Done (VB 2 [1; 2; 0; 0]).
Proof. unfold capacity_ok. cbn. unfold is_byte. repeat split; lia. Qed.

Example C30_applies : let ty := OElem (EBytes true 4) in
  Forall (op_ok ty) [OpBytesSet [1; 2; 3] 3; OpBytesPut 9 5; OpBytesSet [1; 2; 3; 4; 5] 5]
  /\ run_ops 0 [OpBytesSet [1; 2; 3] 3; OpBytesPut 9 5; OpBytesSet [1; 2; 3; 4; 5] 5] ty (construct ty) = Done (VB 4 [1; 2; 3; 5]).
Proof. split; [repeat constructor; cbn; unfold legal_index, is_byte; lia|reflexivity]. Qed.

(** C31: false. set(ptr, len) does not terminate the string. The pointer then shows the tail of an earlier,
    longer value; and when the array is full the reader of the C string leaves the array. *)
Theorem C31_cstring_refuted : exists max ops1 ops2 v1 v2, let ty := OElem (EBytes true max) in
  capacity_ok max /\ Forall (op_ok ty) ops1 /\ Forall (op_ok ty) ops2
  (* a shorter value after a longer one *)
  /\ run_ops 0 ops1 ty (construct ty) = Done v1 /\ oview ty v1 = SvB [120; 121] /\ string_c_str v1 = Done [120; 121; 99; 100]
  (* a value that fills the array: the reader runs off its end *)
  /\ run_ops 0 ops2 ty (construct ty) = Done v2 /\ oview ty v2 = SvB [97; 98; 99; 100; 101] /\ string_c_str v2 = UB.
Proof. exact cstr_stale. Qed.
Print Assumptions C31_cstring_refuted.

(** What holds: right after set(const char* ), clear() or a decode, for strings shorter than the capacity.
    Missing: set(ptr, len), indexed writes, copies, and strings that fill the array. *)
Theorem C31_cstring_set_partial : forall max v s fuel v', let t := EBytes true max in
  capacity_ok max -> wt t v -> Forall is_byte s -> In 0 s \/ max < zlen s -> zlen (c_string s) < max ->
  run_op fuel (OpCStr (Some s)) (OElem t) v = Done (NoErrors, v') ->
  string_c_str v' = Done (c_string s) /\ view t v' = SvB (c_string s).
Proof. exact cstr_after_set. Qed.
Print Assumptions C31_cstring_set_partial.

Theorem C31_cstring_clear_partial : forall max v v', let t := EBytes true max in
  capacity_ok max -> wt t v -> clear t v = Done v' -> string_c_str v' = Done [] /\ view t v' = SvB [].
Proof. exact cstr_after_clear. Qed.
Print Assumptions C31_cstring_clear_partial.

Theorem C31_cstring_decode_partial : forall S (R : rops S) rel, reader_ok R rel ->
  forall max v l p rest s fuel, let t := EBytes true max in
  capacity_ok max -> varint32 l (zlen p) -> zlen p < max -> ~ In 0 p -> rel s (l ++ p ++ rest) ->
  exists v' s', elem_deserialize_check_type t (deserialize fuel t) LENDEL S R v s = Done (NoErrors, v', s')
    /\ string_c_str v' = Done p /\ view t v' = SvB p.
Proof. exact (fun S R rel ok => cstr_after_decode ok). Qed.
Print Assumptions C31_cstring_decode_partial.

Example C31_applies : let t := EBytes true 5 in
  run_op 0 (OpCStr (Some [97; 98; 0])) (OElem t) (VB 5 [1; 2; 3; 4; 5]) = Done (NoErrors, VB 2 [97; 98; 0; 4; 5])
  /\ exists v' s', elem_deserialize_check_type t (deserialize 1 t) LENDEL rfix (rfix_ops 3) (VB 5 [1; 2; 3; 4; 5]) (rfix_of [2; 97; 98]) = Done (NoErrors, v', s')
     /\ string_c_str v' = Done [97; 98].
Proof. split; [reflexivity|]. do 2 eexists. split; vm_compute; reflexivity. Qed.

(** C32: set(const char* ). [s] is the memory behind the pointer, ending with or after the terminator, or,
    for a string without one in reach, with at least capacity+1 characters; reading past the end of [s] is
    UB, so no more than that is read. The terminator is stored when there is room. *)
Theorem C32_set_cstring : forall max v s fuel, let t := EBytes true max in
  capacity_ok max -> wt t v -> Forall is_byte s -> In 0 s \/ max < zlen s ->
  exists data, let str := firstn (Z.to_nat max) (c_string s) in
    run_op fuel (OpCStr (Some s)) (OElem t) v = Done (NoErrors, VB (zlen str) data)
    /\ wt t (VB (zlen str) data) /\ view t (VB (zlen str) data) = SvB str
    /\ (zlen str < max -> nth_error data (length str) = Some 0).
Proof. exact cstr_set. Qed.
Print Assumptions C32_set_cstring.

Theorem C32_null : forall max v fuel, let t := EBytes true max in
  capacity_ok max -> wt t v ->
  exists v', run_op fuel (OpCStr None) (OElem t) v = Done (NoErrors, v') /\ wt t v' /\ view t v' = SvB [].
Proof. exact cstr_null. Qed.
Print Assumptions C32_null.

(** Shorter than, as long as and longer than the array; four readable characters without terminator. *)
Example C32_applies : let t := EBytes true 3 in let v := VB 3 [7; 7; 7] in
  wt t v
  /\ run_op 0 (OpCStr (Some [97; 98; 0])) (OElem t) v = Done (NoErrors, VB 2 [97; 98; 0])
  /\ run_op 0 (OpCStr (Some [97; 98; 99; 0])) (OElem t) v = Done (NoErrors, VB 3 [97; 98; 99])
  /\ run_op 0 (OpCStr (Some [97; 98; 99; 100])) (OElem t) v = Done (NoErrors, VB 3 [97; 98; 99])
  /\ run_op 0 (OpCStr (Some [97; 98])) (OElem t) v = UB.
Proof. repeat split; try (vm_compute; congruence). Qed.

(** C34: after any history a repeated field shows a list of at most [max] elements, which is what the
    calls make of the empty list ([acalls]). *)
Theorem C34_history : forall max t ops fuel v, let ty := ORep max t in
  oty_ok ty -> Forall (op_ok ty) ops -> run_ops fuel ops ty (construct ty) = Done v ->
  exists l, oview ty v = SvR l /\ zlen l <= max /\ acalls ty (SvR []) ops (SvR l).
Proof. exact rep_history. Qed.
Print Assumptions C34_history.

(** Every single call after any history: its effect and the error it returns ([acall]). *)
Theorem C34_call : forall max t ops fuel v o, let ty := ORep max t in
  oty_ok ty -> Forall (op_ok ty) ops -> run_ops fuel ops ty (construct ty) = Done v -> op_ok ty o ->
  match run_op fuel o ty v with
  | Done (e, v') => owt ty v' /\ acall ty (oview ty v) o e (oview ty v')
  | UB => False
  | Fuel => decodes o
  end.
Proof. exact (fun max t => next_call (ORep max t)). Qed.
Print Assumptions C34_call.

(** get_const(index, value): the element, or INDEX_OUT_OF_BOUND. *)
Theorem C34_get : forall max t v l index, wt_field (KRep max) (wt t) v -> oview (ORep max t) v = SvR l -> 0 <= index ->
  match nth_error l (Z.to_nat index) with
  | Some x => exists y, rep_get_const_checked v index = Done (NoErrors, Some y) /\ view t y = x
  | None => rep_get_const_checked v index = Done (IndexOutOfBound, None)
  end.
Proof. exact rep_get_checked. Qed.
Print Assumptions C34_get.

(** Copy construction, also from a repeated field with a smaller capacity. *)
Theorem C34_copy : forall max t src, desc_ok t -> wt_field (KRep max) (wt t) src ->
  exists v', rep_copy_construct t src = Done v' /\ wt_field (KRep max) (wt t) v' /\ oview (ORep max t) v' = oview (ORep max t) src.
Proof. exact rep_copy_ctor. Qed.
Print Assumptions C34_copy.

Theorem C34_copy_smaller : forall max max' t src, desc_ok t -> capacity_ok max -> max' <= max -> wt_field (KRep max') (wt t) src ->
  exists v', rep_construct_from_smaller t max src = Done v' /\ wt_field (KRep max) (wt t) v' /\ oview (ORep max t) v' = oview (ORep max' t) src.
Proof. exact rep_smaller_ctor. Qed.
Print Assumptions C34_copy_smaller.

Example C34_applies : let ty := ORep 3 (EScalar UInt32) in
  let ops := [OpRepAdd (VS 1); OpRepAdd (VS 2); OpRepSet 0 (VS 9); OpRepAdd (VS 3); OpRepAdd (VS 4); OpRepSetData [VS 1; VS 2; VS 3; VS 4] 4; OpRepSetData [VS 6; VS 7] 2] in
  oty_ok ty /\ Forall (op_ok ty) ops
  /\ exists v1 v2, run_ops 0 (firstn 6 ops) ty (construct ty) = Done v1 /\ oview ty v1 = SvR [SvZ 9; SvZ 2; SvZ 3]
     /\ run_op 0 (OpRepAdd (VS 5)) ty v1 = Done (ArrayFull, v1)
     /\ run_ops 0 ops ty (construct ty) = Done v2 /\ oview ty v2 = SvR [SvZ 6; SvZ 7]
     /\ rep_get_const_checked v2 2 = Done (IndexOutOfBound, None).
Proof.
  cbv zeta. split; [cbn; unfold capacity_ok; lia|]. split; [repeat constructor; cbn; unfold legal_index; lia|].
  do 2 eexists. split; [vm_compute; reflexivity|]. repeat split; vm_compute; reflexivity.
Qed.

(** C35: false. A repeated message field is shortened with set_data(); a record with field a = 7 decoded
    afterwards shows up with the optional field b of a former element. The same bytes decoded into a new
    object give an element without b. *)
Theorem C35_history_refuted : exists fs ops1 ops2 v1 v2, let m := EMsg fs [] in
  desc_ok m /\ Forall (op_ok (OElem m)) ops1 /\ Forall (op_ok (OElem m)) ops2
  /\ run_ops 10 ops1 (OElem m) (construct (OElem m)) = Done v1
  /\ run_ops 10 ops2 (OElem m) (construct (OElem m)) = Done v2
  (* both show the same before the last call, which decodes the same bytes *)
  /\ last ops1 OpTouch = last ops2 OpTouch
  /\ (exists w1 w2, run_ops 10 (removelast ops1) (OElem m) (construct (OElem m)) = Done w1
        /\ run_ops 10 (removelast ops2) (OElem m) (construct (OElem m)) = Done w2 /\ view m w1 = view m w2)
  /\ view m v1 = SvM [SvR [SvM [SvZ 7; SvSome (SvZ 2); SvB [104; 105]] []]] []
  /\ view m v2 = SvM [SvR [SvM [SvZ 7; SvNone; SvB []] []]] [].
Proof. exact stale_element. Qed.
Print Assumptions C35_history_refuted.

(** What holds: in an object without left-overs ([clean], Spec.v) the appended element is what the payload
    makes of a default element. Missing: the objects that are not clean. *)
Theorem C35_history_partial : forall fs os v vs ovs i num max t old tg l p new, let m := EMsg fs os in
  desc_ok m -> wt m v -> clean m v -> view m v = SvM vs ovs ->
  nth_error fs i = Some (num, KRep max, t) -> is_packed t = false -> nth_error vs i = Some (SvR old) -> zlen old + 1 <= max ->
  varint32 tg (num * 8 + wt_code LENDEL) -> varint32 l (zlen p) -> edec t (sdefault t) p new ->
  forall S (R : rops S) rel, reader_ok R rel -> forall s, rel s (tg ++ l ++ p) -> forall fuel, (length (tg ++ l ++ p) < fuel)%nat ->
  exists v' s', deserialize fuel m S R v s = Done (NoErrors, v', s')
    /\ view m v' = SvM (upd i (SvR (old ++ [new])) vs) ovs.
Proof. exact repeated_decode. Qed.
Print Assumptions C35_history_partial.

Example C35_applies : clean Outer outer_v /\ nth_error outer_fields 3 = Some (4, KRep 3, Inner)
  /\ exists v' s', deserialize 10 Outer rfix (rfix_ops 4) outer_v (rfix_of [34; 2; 8; 7]) = Done (NoErrors, v', s')
     /\ nth_error (match view Outer v' with SvM vs _ => vs | _ => [] end) 3
        = Some (SvR [SvM [SvZ 5; SvSome (SvZ (-3)); SvB [104; 105]] []; SvM [SvZ 0; SvNone; SvB []] []; SvM [SvZ 7; SvNone; SvB []] []]).
Proof. split; [exact outer_v_clean|]. split; [reflexivity|]. do 2 eexists. split; vm_compute; reflexivity. Qed.

(** C36: has_ of an optional field is what the calls since any earlier moment make of it: set by a mutable
    accessor or setter of that field, reset by its clear_ and by clear(), taken over by assignment, and
    changed by no other call ([has_after], SpecApi.v). Any number of optional fields, any earlier history. *)
Theorem C36_presence : forall fs os ops0 ops fuel v0 v pos num t, let m := EMsg fs os in
  desc_ok m -> Forall (op_ok (OElem m)) ops0 -> run_ops fuel ops0 (OElem m) (construct (OElem m)) = Done v0 ->
  Forall (op_ok (OElem m)) ops -> Forall no_decode ops -> run_ops fuel ops (OElem m) v0 = Done v ->
  nth_error fs pos = Some (num, KOpt, t) ->
  exists b, has_field fs v0 pos = Done b /\ has_field fs v pos = Done (fold_left (has_after m pos) ops b).
Proof. exact presence_history. Qed.
Print Assumptions C36_presence.

Theorem C36_presence_new : forall fs os pos num t, let m := EMsg fs os in
  desc_ok m -> nth_error fs pos = Some (num, KOpt, t) -> has_field fs (construct (OElem m)) pos = Done false.
Proof. exact presence_new. Qed.
Print Assumptions C36_presence_new.

(** Decoding a record of an optional field sets its flag and no other. *)
Theorem C36_presence_decode : forall fs os v vs ovs i num t tg p bs new, let m := EMsg fs os in
  desc_ok m -> wt m v -> clean m v -> view m v = SvM vs ovs -> nth_error fs i = Some (num, KOpt, t) ->
  varint32 tg (num * 8 + wt_code (elem_wiretype t)) -> body t p bs ->
  edec t (match nth_error vs i with Some (SvSome old) => old | _ => sdefault t end) p new ->
  forall S (R : rops S) rel, reader_ok R rel -> forall s, rel s (tg ++ bs) -> forall fuel, (length (tg ++ bs) < fuel)%nat ->
  exists v' s', deserialize fuel m S R v s = Done (NoErrors, v', s')
    /\ has_field fs v' i = Done true
    /\ forall j num' t', nth_error fs j = Some (num', KOpt, t') -> j <> i -> has_field fs v' j = has_field fs v j.
Proof. exact presence_decode. Qed.
Print Assumptions C36_presence_decode.

(** Whatever the input and the buffer, decoding never resets a flag. *)
Theorem C36_presence_kept : forall fs os v, let m := EMsg fs os in desc_ok m -> wt m v ->
  forall S (R : rops S) s fuel e v' s', deserialize fuel m S R v s = Done (e, v', s') ->
  forall pos num t, nth_error fs pos = Some (num, KOpt, t) ->
  has_field fs v pos = Done true -> has_field fs v' pos = Done true.
Proof. exact decode_keeps_flags. Qed.
Print Assumptions C36_presence_kept.

(** Forty optional fields ([forty], ApiSamples.v): two presence words. *)
Example C36_applies : let m := EMsg forty [] in
  desc_ok m /\ exists v, run_ops 0 [OpField 35 (OpScalarSet 5); OpField 3 OpTouch; OpField 39 OpTouch; OpClearField 39] (OElem m) (construct (OElem m)) = Done v
    /\ has_field forty v 35 = Done true /\ has_field forty v 3 = Done true /\ has_field forty v 39 = Done false /\ has_field forty v 34 = Done false.
Proof.
  split; [exact forty_ok|]. eexists. split; [vm_compute; reflexivity|]. repeat split; vm_compute; reflexivity.
Qed.

(** C37: after any history, decodes included, no member of a oneof reports has_, or exactly one does and
    its value is alive, initialised and in range. *)
Theorem C37_at_most_one : forall fs os ops fuel v pos ms, let m := EMsg fs os in
  desc_ok m -> Forall (op_ok (OElem m)) ops -> run_ops fuel ops (OElem m) (construct (OElem m)) = Done v ->
  nth_error os pos = Some ms ->
  (forall id t, lookup ms id = Some t -> has_member v pos id = Done false)
  \/ exists id t x vs ovs, lookup ms id = Some t /\ has_member v pos id = Done true
       /\ (forall id' t', lookup ms id' = Some t' -> id' <> id -> has_member v pos id' = Done false)
       /\ view m v = SvM vs ovs /\ nth_error ovs pos = Some (id, SvSome (view t x)) /\ wt t x.
Proof. exact which_valid. Qed.
Print Assumptions C37_at_most_one.

(** It is the member most recently set and not cleared ([which_after], SpecApi.v); calls for other oneofs and
    for fields do not change it. *)
Theorem C37_most_recent : forall fs os ops0 ops fuel v0 v pos ms, let m := EMsg fs os in
  desc_ok m -> Forall (op_ok (OElem m)) ops0 -> run_ops fuel ops0 (OElem m) (construct (OElem m)) = Done v0 ->
  Forall (op_ok (OElem m)) ops -> Forall no_decode ops -> run_ops fuel ops (OElem m) v0 = Done v ->
  nth_error os pos = Some ms ->
  exists w, which_oneof v0 pos = Done w /\ which_oneof v pos = Done (fold_left (which_after m pos) ops w).
Proof. exact which_history. Qed.
Print Assumptions C37_most_recent.

(** A call on a member selects it; it then shows the outcome [y] of that call on its former value, or on the
    default value when it was not selected. Fields and other oneofs show what they did. *)
Theorem C37_value : forall fs os ops fuel v pos id o e v', let m := EMsg fs os in
  desc_ok m -> Forall (op_ok (OElem m)) ops -> run_ops fuel ops (OElem m) (construct (OElem m)) = Done v ->
  op_ok (OElem m) (OpOneof pos id o) -> run_op fuel (OpOneof pos id o) (OElem m) v = Done (e, v') ->
  exists vs ovs ms t old w x y, view m v = SvM vs ovs /\ nth_error os pos = Some ms /\ lookup ms id = Some t
    /\ nth_error ovs pos = Some (w, old) /\ (if w =? id then old = SvSome x else x = sdefault t)
    /\ view m v' = SvM vs (upd pos (id, SvSome y) ovs) /\ acall (OElem t) x o e y.
Proof. exact oneof_call. Qed.
Print Assumptions C37_value.

(** Decoding a record of a member selects it, deselects the others, and changes nothing else. *)
Theorem C37_decode : forall fs os v vs ovs j ms num t which old tg p bs new, let m := EMsg fs os in
  desc_ok m -> wt m v -> clean m v -> view m v = SvM vs ovs -> nth_error os j = Some ms -> lookup ms num = Some t ->
  varint32 tg (num * 8 + wt_code (elem_wiretype t)) -> body t p bs ->
  nth_error ovs j = Some (which, old) ->
  edec t (match old with SvSome x => if which =? num then x else sdefault t | _ => sdefault t end) p new ->
  forall S (R : rops S) rel, reader_ok R rel -> forall s, rel s (tg ++ bs) -> forall fuel, (length (tg ++ bs) < fuel)%nat ->
  exists v' s', deserialize fuel m S R v s = Done (NoErrors, v', s')
    /\ has_member v' j num = Done true
    /\ (forall id t', lookup ms id = Some t' -> id <> num -> has_member v' j id = Done false)
    /\ view m v' = SvM vs (upd j (num, SvSome new) ovs).
Proof. exact oneof_decode. Qed.
Print Assumptions C37_decode.

Example C37_applies : nth_error outer_oneofs 0 = Some [(7, EScalar Boolean); (8, Inner)]
  /\ exists v0 v, run_ops 20 sample_ops (OElem Outer) (construct (OElem Outer)) = Done v0
     /\ which_oneof v0 0 = Done 7
     /\ run_ops 20 [OpOneof 0 8 (OpField 0 (OpScalarSet 4)); OpField 0 (OpScalarSet 1); OpOneofClear 0 7] (OElem Outer) v0 = Done v
     /\ which_oneof v 0 = Done 8 /\ has_member v 0 7 = Done false.
Proof.
  split; [reflexivity|]. do 2 eexists. split; [vm_compute; reflexivity|]. split; [vm_compute; reflexivity|].
  split; [vm_compute; reflexivity|]. split; vm_compute; reflexivity.
Qed.

(** C39: assignment to any reachable object, and copy construction, make every getter equal to that of
    the source. The source is an input of the function and is not changed; assignment of an object to
    itself or to a part of itself is the subject of C66. *)
Theorem C39_assign : forall t ops fuel dst src, desc_ok t -> Forall (op_ok (OElem t)) ops ->
  run_ops fuel ops (OElem t) (construct (OElem t)) = Done dst -> wt t src ->
  exists dst', assign t dst src = Done dst' /\ wt t dst' /\ view t dst' = view t src.
Proof. exact assign_copies. Qed.
Print Assumptions C39_assign.

Theorem C39_copy_construct : forall t src, desc_ok t -> wt t src ->
  exists v, copy_construct t src = Done v /\ wt t v /\ view t v = view t src.
Proof. exact copy_ctor. Qed.
Print Assumptions C39_copy_construct.

Example C39_applies : wt Outer outer_v /\ exists dst dst', run_ops 20 sample_ops (OElem Outer) (construct (OElem Outer)) = Done dst
  /\ view Outer dst <> view Outer outer_v /\ assign Outer dst outer_v = Done dst' /\ dst' <> outer_v /\ view Outer dst' = view Outer outer_v.
Proof.
  split; [exact outer_v_wt|]. do 2 eexists. split; [vm_compute; reflexivity|]. split; [vm_compute; discriminate|].
  split; [vm_compute; reflexivity|]. split; [discriminate|vm_compute; reflexivity].
Qed.
