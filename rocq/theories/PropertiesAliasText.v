(** * Property C66, continued: strings and bytes fields set from a pointer into their own array.

    [set_own_bytes v k n] (AliasText.v) is `s.set(s.get_const() + k, n)` and [set_own_cstr v k] is
    `s.set(s.get_const() + k)` or `s = s.get_const() + k`. [c_string] (SpecApi.v): the characters before the first 0. *)
From Verif Require Import Base Buffers Wire Schema Fields Message Api Spec SpecApi AliasText AliasTextProofs.

(** With a length: the string becomes the part of itself, if the part does not overlap the place it is copied to. *)
Theorem C66_own_bytes_partial : forall st max ops fuel len data offset n, let ty := OElem (EBytes st max) in
  oty_ok ty -> Forall (op_ok ty) ops -> run_ops fuel ops ty (construct ty) = Done (VB len data) ->
  0 <= offset -> 0 <= n -> offset + n <= max -> n <= offset \/ offset = 0 ->
  exists v', set_own_bytes (VB len data) offset n = Done (NoErrors, v') /\ owt ty v'
    /\ oview ty v' = SvB (firstn (Z.to_nat n) (skipn (Z.to_nat offset) data)).
Proof. exact own_bytes_reach. Qed.
Print Assumptions C66_own_bytes_partial.

Example C66_own_bytes_applies : let ty := OElem (EBytes true 8) in let ops := [OpBytesSet [1; 2; 3; 4; 5; 6] 6] in
  oty_ok ty /\ Forall (op_ok ty) ops /\ run_ops 0 ops ty (construct ty) = Done (VB 6 [1; 2; 3; 4; 5; 6; 0; 0])
  /\ set_own_bytes (VB 6 [1; 2; 3; 4; 5; 6; 0; 0]) 4 2 = Done (NoErrors, VB 2 [5; 6; 3; 4; 5; 6; 0; 0]).
Proof.
  split; [vm_compute; intuition congruence|]. split; [|split; reflexivity].
  constructor; [|constructor]. split; [repeat constructor; discriminate|]. vm_compute. split; discriminate.
Qed.

(** Else it is undefined, in every state, although there is room and the same call with a copy of the characters is
    fine. So the first k characters of a string cannot be removed in this way if more than k are to stay. *)
Theorem C66_overlap_refuted : forall st max ops fuel len data offset n, let ty := OElem (EBytes st max) in
  oty_ok ty -> Forall (op_ok ty) ops -> run_ops fuel ops ty (construct ty) = Done (VB len data) ->
  0 < offset < n -> offset + n <= max ->
  set_own_bytes (VB len data) offset n = UB
  /\ exists v', run_op fuel (OpBytesSet (skipn (Z.to_nat offset) data) n) ty (VB len data) = Done (NoErrors, v').
Proof. exact own_bytes_overlap. Qed.
Print Assumptions C66_overlap_refuted.

Example C66_overlap_applies : let ty := OElem (EBytes true 8) in let ops := [OpBytesSet [1; 2; 3; 4; 5; 6] 6] in
  oty_ok ty /\ Forall (op_ok ty) ops /\ run_ops 0 ops ty (construct ty) = Done (VB 6 [1; 2; 3; 4; 5; 6; 0; 0])
  /\ set_own_bytes (VB 6 [1; 2; 3; 4; 5; 6; 0; 0]) 1 5 = UB.
Proof.
  split; [vm_compute; intuition congruence|]. split; [|split; reflexivity].
  constructor; [|constructor]. split; [repeat constructor; discriminate|]. vm_compute. split; discriminate.
Qed.

(** As a C string, exactly: the characters up to the next 0 are taken if they and the 0 do not overlap the place they
    are copied to; if they do, or if no 0 follows in the array, the call is undefined. *)
Theorem C66_own_cstring_refuted : forall max ops fuel len data offset, let ty := OElem (EBytes true max) in
  oty_ok ty -> Forall (op_ok ty) ops -> run_ops fuel ops ty (construct ty) = Done (VB len data) -> 0 <= offset <= max ->
  let s := skipn (Z.to_nat offset) data in
  (In 0 s -> zlen (c_string s) < offset \/ offset = 0 ->
     exists v', set_own_cstr (VB len data) offset = Done (NoErrors, v') /\ owt ty v' /\ oview ty v' = SvB (c_string s))
  /\ (In 0 s -> 0 < offset <= zlen (c_string s) -> set_own_cstr (VB len data) offset = UB)
  /\ (~ In 0 s -> set_own_cstr (VB len data) offset = UB).
Proof. exact own_cstr_reach. Qed.
Print Assumptions C66_own_cstring_refuted.

(** A string that fills its array cannot be assigned to itself as a C string; "abcdef" can be cut to "ef", but not to
    "cdef". *)
Example C66_own_cstring_applies : let ty := OElem (EBytes true 8) in let ops := [OpBytesSet [97; 98; 99; 100; 101; 102] 6] in
  oty_ok ty /\ Forall (op_ok ty) ops /\ run_ops 0 ops ty (construct ty) = Done (VB 6 [97; 98; 99; 100; 101; 102; 0; 0])
  /\ set_own_cstr (VB 6 [97; 98; 99; 100; 101; 102; 0; 0]) 4 = Done (NoErrors, VB 2 [101; 102; 0; 100; 101; 102; 0; 0])
  /\ set_own_cstr (VB 6 [97; 98; 99; 100; 101; 102; 0; 0]) 2 = UB
  /\ set_own_cstr (VB 8 [97; 98; 99; 100; 101; 102; 103; 104]) 0 = UB.
Proof.
  split; [vm_compute; intuition congruence|]. split; [|repeat split; reflexivity].
  constructor; [|constructor]. split; [repeat constructor; discriminate|]. vm_compute. split; discriminate.
Qed.
