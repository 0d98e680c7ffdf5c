(** * Properties: the order of calls on different parts of an object. *)
From Verif Require Import Base Buffers Wire Schema Fields Message Api Spec SpecApi SpecMentions SpecCalls Samples ApiSamples CallsSamples CallsProofs.

Local Notation t := (OElem Outer).

(** C96: calls on different parts of an object can be made in any order. [independent] (SpecCalls.v): the two calls are
    about different fields or oneofs, different elements of a list, different bytes of a string, at any depth; a message
    that is received, well-formed or not, is about the fields and oneofs whose tags are somewhere in its bytes.
    On every object that calls have made: if the first call and then the second go through, then so do the second and
    then the first, each returns the same error, and the object is the same afterwards, hidden data included. *)
Theorem C96_two_calls : forall fuel ty l v o1 e1 v1 o2 e2 v2, oty_ok ty -> Forall (op_ok ty) (map fst l) -> makes fuel ty (construct ty) l v ->
  op_ok ty o1 -> op_ok ty o2 -> independent ty o1 o2 -> run_op fuel o1 ty v = Done (e1, v1) -> run_op fuel o2 ty v1 = Done (e2, v2) ->
  exists v1', run_op fuel o2 ty v = Done (e2, v1') /\ run_op fuel o1 ty v1' = Done (e1, v2).
Proof. exact calls_pair_pf. Qed.
Print Assumptions C96_two_calls.

(** A field and the optional field next to it, in the second element of a list that has none yet. *)
Example C96_two_calls_applies : Forall (op_ok t) (map fst mixed) /\ makes 100 t (construct t) mixed mixed_result /\ independent t at_a at_b
  /\ exists v1 v2, run_op 100 at_a t mixed_result = Done (NoErrors, v1) /\ run_op 100 at_b t v1 = Done (NoErrors, v2)
  /\ exists v1', run_op 100 at_b t mixed_result = Done (NoErrors, v1') /\ run_op 100 at_a t v1' = Done (NoErrors, v2) /\ v1' <> v1.
Proof.
  split; [exact mixed_ok|]. split; [exact mixed_makes|]. split; [exact at_independent|].
  destruct (run_op 100 at_a t mixed_result) as [[e1 v1]| |] eqn:E1; try (vm_compute in E1; discriminate E1).
  assert (e1 = NoErrors) by (vm_compute in E1; congruence). subst e1.
  destruct (run_op 100 at_b t v1) as [[e2 v2]| |] eqn:E2; try (vm_compute in E1; injection E1 as <-; vm_compute in E2; discriminate E2).
  assert (e2 = NoErrors) by (vm_compute in E1; injection E1 as <-; vm_compute in E2; congruence). subst e2.
  exists v1, v2. split; [reflexivity|]. split; [exact E2|].
  destruct (C96_two_calls 100 t mixed mixed_result at_a NoErrors v1 at_b NoErrors v2 Outer_ok mixed_ok mixed_makes at_a_ok at_b_ok at_independent E1 E2) as (v1' & F2 & F1).
  exists v1'. split; [exact F2|]. split; [exact F1|]. intros ->. vm_compute in E1, F2. congruence.
Qed.

(** A message whose decoding fails half way, and another one; the failing one, and a call on a list. *)
Example C96_receive_applies : forall v0, v0 = construct t ->
  (exists v1 v2 w, run_op 100 (OpDeserialize part_1) t v0 = Done (EndOfBuffer, v1) /\ run_op 100 (OpDeserialize part_2) t v1 = Done (NoErrors, v2)
     /\ run_op 100 (OpDeserialize part_2) t v0 = Done (NoErrors, w) /\ run_op 100 (OpDeserialize part_1) t w = Done (EndOfBuffer, v2))
  /\ (exists v1 v2 w, run_op 100 (OpField 2 (OpRepAdd (VS 5))) t v0 = Done (NoErrors, v1) /\ run_op 100 (OpDeserialize part_1) t v1 = Done (EndOfBuffer, v2)
     /\ run_op 100 (OpDeserialize part_1) t v0 = Done (EndOfBuffer, w) /\ run_op 100 (OpField 2 (OpRepAdd (VS 5))) t w = Done (NoErrors, v2)).
Proof.
  intros v0 ->. destruct parts_ok as (K1 & K2 & K3). split.
  - destruct (run_op 100 (OpDeserialize part_1) t (construct t)) as [[e1 v1]| |] eqn:E1; try (vm_compute in E1; discriminate E1).
    assert (e1 = EndOfBuffer) by (vm_compute in E1; congruence). subst e1.
    destruct (run_op 100 (OpDeserialize part_2) t v1) as [[e2 v2]| |] eqn:E2; try (vm_compute in E1; injection E1 as <-; vm_compute in E2; discriminate E2).
    assert (e2 = NoErrors) by (vm_compute in E1; injection E1 as <-; vm_compute in E2; congruence). subst e2.
    destruct (C96_two_calls 100 t [] (construct t) _ _ v1 _ _ v2 Outer_ok (Forall_nil _) (makes_nil _ _ _) K1 K2 messages_independent E1 E2) as (w & F2 & F1).
    exists v1, v2, w. auto.
  - destruct (run_op 100 (OpField 2 (OpRepAdd (VS 5))) t (construct t)) as [[e1 v1]| |] eqn:E1; try (vm_compute in E1; discriminate E1).
    assert (e1 = NoErrors) by (vm_compute in E1; congruence). subst e1.
    destruct (run_op 100 (OpDeserialize part_1) t v1) as [[e2 v2]| |] eqn:E2; try (vm_compute in E1; injection E1 as <-; vm_compute in E2; discriminate E2).
    assert (e2 = EndOfBuffer) by (vm_compute in E1; injection E1 as <-; vm_compute in E2; congruence). subst e2.
    destruct (C96_two_calls 100 t [] (construct t) _ _ v1 _ _ v2 Outer_ok (Forall_nil _) (makes_nil _ _ _) K3 K1 receive_independent E1 E2) as (w & F2 & F1).
    exists v1, v2, w. auto.
Qed.

(** Whole histories: neighbours that are about different parts trade places, as often as one likes. *)
Theorem C96_histories : forall fuel ty l l' v', oty_ok ty -> Forall (op_ok ty) (map fst l) -> rearranged ty l l' ->
  makes fuel ty (construct ty) l v' -> makes fuel ty (construct ty) l' v'.
Proof. exact calls_rearranged_pf. Qed.
Print Assumptions C96_histories.

(** Three calls inside a list, the other way round. *)
Example C96_histories_applies : exists v', makes 100 t (construct t) deep v' /\ makes 100 t (construct t) deep_last v'
  /\ view Outer v' <> sdefault Outer.
Proof.
  destruct (answers 100 t (construct t) (map fst deep)) as [[l v']| |] eqn:E; try (vm_compute in E; discriminate E).
  assert (l = deep) by (vm_compute in E; unfold deep, at_2, at_a, at_b; congruence). subst l. exists v'.
  pose proof (answers_makes 100 t _ _ _ _ E) as H. split; [exact H|].
  split; [exact (C96_histories 100 t deep deep_last v' Outer_ok deep_ok deep_rearranged H)|]. vm_compute in E. injection E as <-. vm_compute. discriminate.
Qed.

(** For a message it is enough that the calls on each field and each oneof, taken alone, come in the same order with the
    same answers. [l0]: whatever was done before, with calls of any kind. *)
Theorem C96_by_part : forall fuel fs os l0 l l' v', let ty := OElem (EMsg fs os) in oty_ok ty ->
  Forall (op_ok ty) (map fst (l0 ++ l)) ->
  (forall o e, In (o, e) (l ++ l') -> exists p, part_of o = Some p) -> (forall p, about p l = about p l') ->
  makes fuel ty (construct ty) (l0 ++ l) v' -> makes fuel ty (construct ty) (l0 ++ l') v'.
Proof. exact calls_by_part_pf. Qed.
Print Assumptions C96_by_part.

(** Nine calls on five parts, one of them refused, sorted by part. *)
Example C96_by_part_applies : makes 100 t (construct t) mixed mixed_result /\ makes 100 t (construct t) sorted mixed_result.
Proof.
  split; [exact mixed_makes|].
  exact (C96_by_part 100 outer_fields outer_oneofs [] mixed sorted mixed_result Outer_ok mixed_ok mixed_parts mixed_sorted mixed_makes).
Qed.

(** Calls on two members of one oneof are about the same part: their order matters. *)
Example C96_members_matter : exists v1 v2 w1 w2,
  run_op 100 (OpOneof 0 7 (OpScalarSet 1)) t (construct t) = Done (NoErrors, v1) /\ run_op 100 (OpOneof 0 8 OpTouch) t v1 = Done (NoErrors, v2)
  /\ run_op 100 (OpOneof 0 8 OpTouch) t (construct t) = Done (NoErrors, w1) /\ run_op 100 (OpOneof 0 7 (OpScalarSet 1)) t w1 = Done (NoErrors, w2)
  /\ which_oneof v2 0 = Done 8 /\ which_oneof w2 0 = Done 7.
Proof.
  destruct (run_op 100 (OpOneof 0 7 (OpScalarSet 1)) t (construct t)) as [[e1 v1]| |] eqn:E1; try (vm_compute in E1; discriminate E1).
  destruct (run_op 100 (OpOneof 0 8 OpTouch) t (construct t)) as [[e2 w1]| |] eqn:E2; try (vm_compute in E2; discriminate E2).
  vm_compute in E1, E2. injection E1 as <- <-. injection E2 as <- <-.
  eexists _, (VM [0] _ [(8, default_value Inner)]), _, (VM [0] _ [(7, VS 1)]). repeat split.
Qed.
