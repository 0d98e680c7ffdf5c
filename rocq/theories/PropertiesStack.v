(** * C76: the stack needed does not depend on the data.
    Specification: SpecStack.v ([depth], how deeply the message type is nested); Stack.v has deserialize() and serialize()
    with a limit on the number of calls that are active at the same time. *)
From Verif Require Import Base Buffers Wire Schema Fields Message Stack Spec SpecStack Samples StackProofs StackNeeded.
From Coq Require Import Lia.

(** Whatever the buffer holds and however it behaves, whatever the object: as many active calls of a generated
    deserialize() as the type is deep are enough, with more the outcome is no other. *)
Theorem C76_deserialize : forall t levels, (depth t <= levels)%nat ->
  forall fuel S (R : rops S) v s, deserialize_within levels fuel t S R v s = deserialize fuel t S R v s.
Proof. exact (fun t levels H fuel => deserialize_depth fuel t levels H). Qed.
Print Assumptions C76_deserialize.

(** The same for serialize(), including the calls made to compute sizes. *)
Theorem C76_serialize : forall t levels, (depth t <= levels)%nat ->
  forall v S (W : wops S) s, serialize_within levels t v S W s = serialize t v S W s.
Proof. exact (fun t levels H v => serialize_depth t levels v H). Qed.
Print Assumptions C76_serialize.

(** The sample type has two levels. Six records nested in each other do not make it more: the inner ones are unknown to it. *)
Example C76_applies : depth Outer = 2%nat /\ depth Inner = 1%nat
  /\ (exists v s, deserialize_within 2 100 Outer rfix (rfix_ops 12) (default_value Outer) (rfix_of [34; 10; 34; 8; 34; 6; 34; 4; 34; 2; 34; 0]) = Done (NoErrors, v, s))
  /\ (exists s, serialize_within 2 Outer outer_v wfix (wfix_ops 100) (wfix_init 100) = Done (NoErrors, s)).
Proof.
  split; [vm_compute; reflexivity|]. split; [vm_compute; reflexivity|].
  split; [do 2 eexists; vm_compute; reflexivity|eexists; vm_compute; reflexivity].
Qed.

(** No smaller number is enough for deserialize(): with fewer calls than the type is deep a valid message of at most ten bytes
    per level cannot be read. *)
Theorem C76_needed : forall fs os levels, let t := EMsg fs os in
  desc_ok t -> (levels < depth t)%nat -> 10 * Z.of_nat levels < 2 ^ 32 ->
  exists bytes, Forall is_byte bytes /\ zlen bytes <= 10 * Z.of_nat levels /\
  forall fuel, (1 < fuel)%nat ->
    (exists v s, deserialize fuel t rfix (rfix_ops (zlen bytes)) (default_value t) (rfix_of bytes) = Done (NoErrors, v, s))
    /\ deserialize_within levels fuel t rfix (rfix_ops (zlen bytes)) (default_value t) (rfix_of bytes) = Fuel.
Proof. exact depth_needed_fixed. Qed.
Print Assumptions C76_needed.

Example C76_needed_applies : desc_ok Outer /\ (1 < depth Outer)%nat.
Proof. split; [exact Outer_ok|vm_compute; lia]. Qed.

(** The same for serialize(): an object that shows messages nested [n] deep needs [n] active calls, on every buffer
    that has room for it. *)
Theorem C76_serialize_needed : forall t v n levels, desc_ok t -> wt t v -> holds_levels t (view t v) n -> (levels < n)%nat ->
  forall S (W : wops S) s s', serialize t v S W s = Done (NoErrors, s') -> serialize_within levels t v S W s = Fuel.
Proof. exact serialize_needed. Qed.
Print Assumptions C76_serialize_needed.

Example C76_serialize_needed_applies : desc_ok Outer /\ wt Outer outer_v /\ holds_levels Outer (view Outer outer_v) 2
  /\ exists s', serialize Outer outer_v _ (wfix_ops 60) (wfix_init 60) = Done (NoErrors, s').
Proof.
  split; [exact Outer_ok|]. split; [exact outer_v_wt|]. split; [|eexists; vm_compute; reflexivity].
  eapply (hl_plain _ _ _ _ 5); [reflexivity|vm_compute; reflexivity|]. apply hl_self.
Qed.
