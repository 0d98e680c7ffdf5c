(** * Property C97: the lengths and sizes that lists, strings and bytes report.

    [get_length v], [get_max_length v], [list_get_size sizeof v], [list_get_max_size sizeof v]: the functions of these names;
    [sizeof]: the size of one element in memory, as the compiler lays it out. [oview ty v]: what the getters show. *)
From Verif Require Import Base Schema Spec Api SpecApi ListSize ApiProps ListSizeProofs.
From Coq Require Import List ZArith Lia.

(** After every sequence of calls: the number of elements and the bytes they take. Missing: arrays of 4 GiB and more. *)
Theorem C97_list_partial : forall max t sizeof ops fuel v, let ty := ORep max t in
  oty_ok ty -> Forall (op_ok ty) ops -> run_ops fuel ops ty (construct ty) = Done v -> 0 < sizeof -> sizeof * max < 2 ^ 32 ->
  exists l, oview ty v = SvR l /\ get_length v = zlen l /\ get_max_length v = max /\ zlen l <= max
    /\ list_get_size sizeof v = sizeof * zlen l /\ list_get_max_size sizeof v = sizeof * max.
Proof. exact list_sizes. Qed.
Print Assumptions C97_list_partial.

(** The two sizes tell whether add() has room; each element that is added makes the size one element larger. *)
Theorem C97_room_partial : forall max t sizeof ops fuel v x, let ty := ORep max t in
  oty_ok ty -> Forall (op_ok ty) ops -> run_ops fuel ops ty (construct ty) = Done v -> 0 < sizeof -> sizeof * max < 2 ^ 32 -> wt t x ->
  exists e v' l, run_op fuel (OpRepAdd x) ty v = Done (e, v') /\ oview ty v = SvR l
    /\ if list_get_size sizeof v =? list_get_max_size sizeof v then e = ArrayFull /\ oview ty v' = SvR l
       else e = NoErrors /\ oview ty v' = SvR (l ++ [view t x]) /\ list_get_size sizeof v' = list_get_size sizeof v + sizeof.
Proof. exact list_full. Qed.
Print Assumptions C97_room_partial.

Example C97_list_applies : let ty := ORep 3 (EScalar UInt64) in let ops := [OpRepAdd (VS 7); OpRepSet 1 (VS 9)] in
  oty_ok ty /\ Forall (op_ok ty) ops /\ run_ops 0 ops ty (construct ty) = Done (VR 2 [VS 7; VS 9; VS 0])
  /\ list_get_size 16 (VR 2 [VS 7; VS 9; VS 0]) = 32 /\ list_get_max_size 16 (VR 2 [VS 7; VS 9; VS 0]) = 48
  /\ run_op 0 (OpRepAdd (VS 5)) ty (VR 2 [VS 7; VS 9; VS 0]) = Done (NoErrors, VR 3 [VS 7; VS 9; VS 5])
  /\ run_op 0 (OpRepAdd (VS 6)) ty (VR 3 [VS 7; VS 9; VS 5]) = Done (ArrayFull, VR 3 [VS 7; VS 9; VS 5]).
Proof. cbv zeta. split; [split; [exact I|unfold capacity_ok; lia]|]. split; [repeat constructor; cbn; lia|]. repeat split. Qed.

(** A list whose elements take 4 GiB or more reports fewer bytes: the product does not fit into uint32_t. *)
Theorem C97_large_refuted : forall max t sizeof xs fuel, let ty := ORep max t in
  oty_ok ty -> Forall (wt t) xs -> zlen xs <= max -> 0 < sizeof < 2 ^ 32 -> 2 ^ 32 <= sizeof * zlen xs ->
  exists v, run_ops fuel [OpRepSetData xs (zlen xs)] ty (construct ty) = Done v /\ oview ty v = SvR (map (view t) xs)
    /\ list_get_size sizeof v < 2 ^ 32 <= sizeof * zlen xs.
Proof. exact list_wraps. Qed.
Print Assumptions C97_large_refuted.

Example C97_large_applies : let t := EBytes false (2 ^ 30) in let x := default_value t in
  oty_ok (ORep 4 t) /\ Forall (wt t) [x; x; x; x] /\ zlen [x; x; x; x] <= 4 /\ 2 ^ 32 <= (2 ^ 30 + 16) * zlen [x; x; x; x].
Proof.
  intros t x. assert (C : capacity_ok (2 ^ 30)) by (unfold capacity_ok; lia). assert (W : wt t x) by exact (proj1 (construct_ok (OElem t) C)).
  split; [split; [exact C|unfold capacity_ok; lia]|]. split; [auto|]. clearbody x. split; [reflexivity||(unfold zlen; cbn [length]; lia)|unfold zlen; cbn [length]; lia].
Qed.

(** Strings and bytes: the number of characters shown, and the capacity. *)
Theorem C97_text : forall st max ops fuel v, let ty := OElem (EBytes st max) in
  capacity_ok max -> Forall (op_ok ty) ops -> run_ops fuel ops ty (construct ty) = Done v ->
  exists bs, oview ty v = SvB bs /\ get_length v = zlen bs /\ get_max_length v = max /\ zlen bs <= max.
Proof. exact text_sizes. Qed.
Print Assumptions C97_text.

Example C97_text_applies : let ty := OElem (EBytes true 4) in let ops := [OpBytesSet [65; 66; 67] 3; OpBytesPut 0 68] in
  capacity_ok 4 /\ Forall (op_ok ty) ops /\ run_ops 0 ops ty (construct ty) = Done (VB 3 [68; 66; 67; 0])
  /\ get_length (VB 3 [68; 66; 67; 0]) = 3 /\ get_max_length (VB 3 [68; 66; 67; 0]) = 4.
Proof.
  cbv zeta. split; [unfold capacity_ok; lia|]. split; [repeat constructor; cbn; try lia|]. repeat split.
Qed.
