(** * Property C80: single elements of strings, bytes fields and lists.

    [run_ops] and [construct]: histories of API calls and a new object (Api.v); [op_ok], [owt], [oview]: legal calls, valid objects and what
    the getters show (SpecApi.v); [grows], [bytes_step] and [list_step]: lists that are padded with default elements (SpecAccess.v). *)
From Verif Require Import Base Buffers Wire Schema Fields Message Api Spec SpecApi SpecAccess Contracts AccessProofs.

(** get_const(index, value) and get_const(index) of a string or bytes field: the byte at this index. Behind the end the first
    returns INDEX_OUT_OF_BOUND, the second some byte, without leaving the array. *)
Theorem C80_read_bytes : forall st max v bs index,
  capacity_ok max -> wt (EBytes st max) v -> view (EBytes st max) v = SvB bs -> 0 <= index ->
  match nth_error bs (Z.to_nat index) with
  | Some b => bytes_get_const_checked v index = Done (NoErrors, Some b) /\ bytes_get_const v index = Done b
  | None => bytes_get_const_checked v index = Done (IndexOutOfBound, None) /\ exists b, is_byte b /\ bytes_get_const v index = Done b
  end.
Proof. exact bytes_read. Qed.
Print Assumptions C80_read_bytes.

(** The same for a repeated field. *)
Theorem C80_read_list : forall max t len data l index,
  capacity_ok max -> wt_field (KRep max) (wt t) (VR len data) -> oview (ORep max t) (VR len data) = SvR l -> 0 <= index ->
  exists y, rep_get_const data index = Done y /\ wt t y
    /\ match nth_error l (Z.to_nat index) with
       | Some x => rep_get_const_checked (VR len data) index = Done (NoErrors, Some y) /\ view t y = x
       | None => rep_get_const_checked (VR len data) index = Done (IndexOutOfBound, None)
       end.
Proof. exact list_read. Qed.
Print Assumptions C80_read_list.

Example C80_read_applies : let v := VB 2 [7; 8; 9; 0] in
  capacity_ok 4 /\ wt (EBytes false 4) v
  /\ bytes_get_const_checked v 1 = Done (NoErrors, Some 8) /\ bytes_get_const_checked v 2 = Done (IndexOutOfBound, None)
  /\ bytes_get_const v 1 = Done 8 /\ bytes_get_const v 2 = Done 9 /\ bytes_get_const v 1000 = Done 0
  /\ rep_get_const_checked (VR 1 [VS 7; VS 8]) 0 = Done (NoErrors, Some (VS 7))
  /\ rep_get_const_checked (VR 1 [VS 7; VS 8]) 1 = Done (IndexOutOfBound, None) /\ rep_get_const [VS 7; VS 8] 9 = Done (VS 8).
Proof. repeat split; vm_compute; congruence. Qed.

(** Writing behind the end should show default elements in between. It does not: after set() of a shorter content, all old bytes
    between the new end and the written index show up again. For every old and new content and every index. *)
Theorem C80_gap_bytes_refuted : forall st max old new i b fuel, let ty := OElem (EBytes st max) in
  capacity_ok max -> Forall is_byte old -> zlen old <= max -> Forall is_byte new -> zlen new <= i < max -> is_byte b ->
  exists v bs, run_ops fuel [OpBytesSet old (zlen old); OpBytesSet new (zlen new); OpBytesPut i b] ty (construct ty) = Done v
    /\ oview ty v = SvB bs /\ zlen bs = i + 1 /\ firstn (length new) bs = new
    /\ forall j x, (length new <= j < Z.to_nat i)%nat -> nth_error old j = Some x -> nth_error bs j = Some x.
Proof. exact bytes_gap. Qed.
Print Assumptions C80_gap_bytes_refuted.

Theorem C80_gap_list_refuted : forall max t old new i b fuel, let ty := ORep max t in
  oty_ok ty -> Forall (wt t) old -> zlen old <= max -> Forall (wt t) new -> zlen new <= i < max -> wt t b ->
  exists v l, run_ops fuel [OpRepSetData old (zlen old); OpRepSetData new (zlen new); OpRepSet i b] ty (construct ty) = Done v
    /\ oview ty v = SvR l /\ zlen l = i + 1 /\ firstn (length new) l = map (view t) new
    /\ forall j x, (length new <= j < Z.to_nat i)%nat -> nth_error old j = Some x -> nth_error l j = Some (view t x).
Proof. exact list_gap. Qed.
Print Assumptions C80_gap_list_refuted.

Example C80_gap_applies : let ty := OElem (EBytes true 8) in let tl := ORep 4 (EScalar UInt32) in
  capacity_ok 8 /\ oty_ok tl
  /\ (exists v, run_ops 0 [OpBytesSet [112; 105; 110; 49; 50] 5; OpBytesSet [111] 1; OpBytesPut 4 33] ty (construct ty) = Done v
      /\ oview ty v = SvB [111; 105; 110; 49; 33])
  /\ (exists v, run_ops 0 [OpRepSetData [VS 1; VS 2; VS 3] 3; OpRepSetData [VS 9] 1; OpRepSet 3 (VS 5)] tl (construct tl) = Done v
      /\ oview tl v = SvR [SvZ 9; SvZ 2; SvZ 3; SvZ 5]).
Proof.
  cbv zeta. split; [unfold capacity_ok; lia|]. split; [cbn; unfold capacity_ok; lia|].
  split; (eexists; split; [vm_compute; reflexivity|reflexivity]).
Qed.

(** It does for an object that was just made, or cleared, and since then only grown with indexed writes and add(). *)
Theorem C80_grown_bytes_partial : forall st max ops fuel v0, let ty := OElem (EBytes st max) in
  capacity_ok max -> Forall (op_ok ty) ops -> Forall grows ops -> owt ty v0 ->
  let l := fold_left (bytes_step max) ops [] in
  (exists v, run_ops fuel ops ty (construct ty) = Done v /\ oview ty v = SvB l)
  /\ (exists v, run_ops fuel (OpClear :: ops) ty v0 = Done v /\ oview ty v = SvB l).
Proof. exact bytes_grown. Qed.
Print Assumptions C80_grown_bytes_partial.

Theorem C80_grown_list_partial : forall max t ops fuel v0, let ty := ORep max t in
  oty_ok ty -> Forall (op_ok ty) ops -> Forall grows ops -> owt ty v0 ->
  let l := fold_left (list_step t max) ops [] in
  (exists v, run_ops fuel ops ty (construct ty) = Done v /\ oview ty v = SvR l)
  /\ (exists v, run_ops fuel (OpClear :: ops) ty v0 = Done v /\ oview ty v = SvR l).
Proof. exact list_grown. Qed.
Print Assumptions C80_grown_list_partial.

Example C80_grown_applies : let ty := OElem (EBytes true 8) in let tl := ORep 4 (EScalar UInt32) in
  let ops := [OpBytesPut 2 65; OpBytesPut 1 66; OpBytesPut 99 67] in let lops := [OpRepSet 2 (VS 5); OpRepAdd (VS 6); OpRepAdd (VS 7); OpRepSet 0 (VS 8)] in
  Forall (op_ok ty) ops /\ Forall grows ops /\ owt ty (VB 3 [1; 2; 3; 4; 5; 6; 7; 8]) /\ fold_left (bytes_step 8) ops [] = [0; 66; 65; 0; 0; 0; 0; 67]
  /\ Forall (op_ok tl) lops /\ Forall grows lops /\ fold_left (list_step (EScalar UInt32) 4) lops [] = [SvZ 8; SvZ 0; SvZ 5; SvZ 6].
Proof.
  cbv zeta. repeat match goal with |- _ /\ _ => split end; try reflexivity;
    repeat constructor; cbn; unfold legal_index, is_byte; try lia.
Qed.
