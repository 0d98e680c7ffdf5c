(** * Property C78: the serialized bytes say which message it was.

    [view t v] is what the getters of [v] show, [norm] leaves out the sign of a zero in plain float and double fields
    (C21). [wfix_rel cap b c (Some n)]: a WriteBufferFixedSize holding [c] with room for [n] more bytes. *)
From Verif Require Import Base Buffers Wire Schema Fields Message Api Spec SpecApi Contracts BufferProofs Samples ApiSamples Tables SameProofs.

(** Two objects of a class, with any two histories of calls, give the same bytes exactly if their getters show the
    same. So the bytes do not depend on what the objects went through, and different messages have
    different bytes. *)
Theorem C78_histories : forall fs os ops ops2 fuel fuel2 v w, let t := EMsg fs os in
  desc_ok t -> Forall (op_ok (OElem t)) ops -> Forall (op_ok (OElem t)) ops2 ->
  run_ops fuel ops (OElem t) (construct (OElem t)) = Done v -> run_ops fuel2 ops2 (OElem t) (construct (OElem t)) = Done w ->
  zlen (enc t (view t v)) < 2 ^ 32 -> zlen (enc t (view t w)) < 2 ^ 32 ->
  forall cap b c n b' cap2 b2 c2 n2 b2' bytes bytes2, wfix_rel cap b c (Some n) -> wfix_rel cap2 b2 c2 (Some n2) ->
  serialize t v _ (wfix_ops cap) b = Done (NoErrors, b') -> wfix_content b' = wfix_content b ++ bytes ->
  serialize t w _ (wfix_ops cap2) b2 = Done (NoErrors, b2') -> wfix_content b2' = wfix_content b2 ++ bytes2 ->
  (bytes = bytes2 <-> norm t (view t v) = norm t (view t w)).
Proof. exact same_bytes_histories. Qed.
Print Assumptions C78_histories.

(** Here the objects differ and the getters show the same. *)
Example C78_histories_applies : exists v w b b2, desc_ok Outer
  /\ Forall (op_ok (OElem Outer)) sample_ops /\ Forall (op_ok (OElem Outer)) sample_ops2
  /\ run_ops 20 sample_ops (OElem Outer) (construct (OElem Outer)) = Done v
  /\ run_ops 20 sample_ops2 (OElem Outer) (construct (OElem Outer)) = Done w
  /\ serialize Outer v _ (wfix_ops 60) (wfix_init 60) = Done (NoErrors, b)
  /\ serialize Outer w _ (wfix_ops 70) (wfix_init 70) = Done (NoErrors, b2)
  /\ v <> w /\ wfix_content b = wfix_content b2 /\ view Outer v = view Outer w.
Proof.
  do 4 eexists. split; [exact Outer_ok|]. split; [exact sample_ops_ok|]. split; [exact sample_ops2_ok|].
  split; [vm_compute; reflexivity|]. split; [vm_compute; reflexivity|]. split; [vm_compute; reflexivity|]. split; [vm_compute; reflexivity|].
  split; [discriminate|]. split; vm_compute; reflexivity.
Qed.

(** The same for any two valid objects (C27_reachable), so also for those a history of the API cannot reach. *)
Theorem C78_same_bytes : forall fs os v w, let t := EMsg fs os in
  desc_ok t -> wt t v -> wt t w -> zlen (enc t (view t v)) < 2 ^ 32 -> zlen (enc t (view t w)) < 2 ^ 32 ->
  forall cap b c n b' cap2 b2 c2 n2 b2' bytes bytes2, wfix_rel cap b c (Some n) -> wfix_rel cap2 b2 c2 (Some n2) ->
  serialize t v _ (wfix_ops cap) b = Done (NoErrors, b') -> wfix_content b' = wfix_content b ++ bytes ->
  serialize t w _ (wfix_ops cap2) b2 = Done (NoErrors, b2') -> wfix_content b2' = wfix_content b2 ++ bytes2 ->
  (bytes = bytes2 <-> norm t (view t v) = norm t (view t w)).
Proof. exact same_bytes. Qed.
Print Assumptions C78_same_bytes.

Example C78_same_bytes_applies : desc_ok Outer /\ wt Outer outer_v /\ wt Outer (default_value Outer)
  /\ norm Outer (view Outer outer_v) <> norm Outer (view Outer (default_value Outer)).
Proof. split; [exact Outer_ok|]. split; [exact outer_v_wt|]. split; [apply default_ok; exact Outer_ok|discriminate]. Qed.
