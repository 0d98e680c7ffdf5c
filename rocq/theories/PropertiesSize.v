(** * C75: a buffer chosen for the largest message of a type.
    Specification: SpecSize.v ([max_size], computed from field numbers, types and capacities alone), Spec.v. *)
From Verif Require Import Base Buffers Wire Schema Fields Message Api Spec SpecApi SpecSize Contracts Samples BufferProofs SizeProofs.
From Coq Require Import Lia.

(** No object of the class needs more than [max_size] bytes; a fixed-size buffer with one byte more left, or just
    as many when the type has no strings and bytes, never reports BUFFER_FULL. *)
Theorem C75_enough : forall fs os v, let t := EMsg fs os in desc_ok t -> wt t v -> max_size t < 2 ^ 32 ->
  exists n, serialized_size (serialize t v) = Done n /\ 0 <= n <= max_size t
  /\ forall cap b c room, wfix_rel cap b c (Some room) -> max_size t < room \/ max_size t = room /\ no_bytes t ->
     exists b', serialize t v wfix (wfix_ops cap) b = Done (NoErrors, b').
Proof. exact worst_case. Qed.
Print Assumptions C75_enough.

Example C75_enough_applies : max_size Outer = 163 /\ max_size Inner = 22 /\ desc_ok Outer /\ wt Outer outer_v
  /\ wfix_rel 164 (wfix_init 164) [] (Some 164) /\ serialized_size (serialize Outer outer_v) = Done 53.
Proof.
  split; [vm_compute; reflexivity|]. split; [vm_compute; reflexivity|]. split; [exact Outer_ok|]. split; [exact outer_v_wt|].
  split; [apply wfix_init_rel; lia|vm_compute; reflexivity].
Qed.

(** No smaller number would do: for every type there is an input that a new object decodes without an error and that
    leaves it with exactly that size. *)
Theorem C75_reached : forall fs os, let t := EMsg fs os in desc_ok t -> max_size t < 2 ^ 32 ->
  exists bytes, op_ok (OElem t) (OpDeserialize bytes) /\
  forall fuel, (length bytes < fuel)%nat -> exists v,
    run_op fuel (OpDeserialize bytes) (OElem t) (construct (OElem t)) = Done (NoErrors, v)
    /\ serialized_size (serialize t v) = Done (max_size t).
Proof. exact worst_case_reached. Qed.
Print Assumptions C75_reached.

Example C75_reached_applies : let t := EMsg [(1, KPlain, EScalar Int32); (2, KRep 3, EScalar UInt64)] [[(3, EBytes true 7); (4, EScalar Boolean)]] in
  desc_ok t /\ max_size t = 47
  /\ exists v, run_op 60 (OpDeserialize ([8; 255; 255; 255; 255; 15; 18; 30] ++ concat (repeat [255; 255; 255; 255; 255; 255; 255; 255; 255; 1] 3)
                                         ++ [26; 7; 65; 65; 65; 65; 65; 65; 65])) (OElem t) (construct (OElem t)) = Done (NoErrors, v)
     /\ serialized_size (serialize t v) = Done 47.
Proof.
  cbn zeta. split; [|split; [vm_compute; reflexivity|eexists; split; [vm_compute; reflexivity|vm_compute; reflexivity]]].
  cbn. split; [repeat constructor; cbn; intuition lia|]. unfold capacity_ok. repeat split; lia.
Qed.
