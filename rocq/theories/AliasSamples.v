(** Objects for the examples beside C66. *)
From Verif Require Import Base Buffers Wire Schema Fields Message Api Spec SpecApi Alias SpecAlias.

(** message Part { uint32 n = 1; }   message Entry { oneof o { Part c = 3; Part d = 4; } }
    message Choice { repeated Entry l = 5 (max 3); oneof o { uint32 a = 1; uint32 b = 2; } } *)
Definition Part : ety := EMsg [(1, KPlain, EScalar UInt32)] [].
Definition Entry : ety := EMsg [] [[(3, Part); (4, Part)]].
Definition Choice : ety := EMsg [(5, KRep 3, Entry)] [[(1, EScalar UInt32); (2, EScalar UInt32)]].
Definition inner_of (n : Z) : value := VM [] [VS n] [].

Definition choice_ops : list op :=
  [OpField 0 (OpRepAt 0 (OpOneof 0 4 (OpField 0 (OpScalarSet 4)))); OpField 0 (OpRepAt 1 (OpOneof 0 3 (OpField 0 (OpScalarSet 5))));
   OpOneof 0 1 (OpScalarSet 42)].

Lemma choice_ok : oty_ok (OElem Choice) /\ Forall (op_ok (OElem Choice)) choice_ops.
Proof.
  split; [cbn; unfold capacity_ok; repeat split; try lia; repeat constructor; cbn; intuition lia|].
  repeat first [apply Forall_nil|apply Forall_cons]; cbn; unfold legal_index; repeat split; try lia; try (vm_compute; congruence).
Qed.

Lemma choice_rivals :
  oty_ok (OElem Choice) /\ Forall (op_ok (OElem Choice)) choice_ops
  /\ exists v, run_ops 0 choice_ops (OElem Choice) (construct (OElem Choice)) = Done v
  /\ read_at (OElem Choice) [SMember 0 1] v = Done (VS 42)
  /\ rivals (OElem Choice) [SMember 0 2] [SMember 0 1]
  /\ alias_call (OElem Choice) [SMember 0 2] CAssign [SMember 0 1] v = UB
  /\ read_at (OElem Choice) [SField 0; SAt 1; SMember 0 3] v = Done (inner_of 5)
  /\ rivals (OElem Choice) [SField 0; SAt 1; SMember 0 4] [SField 0; SAt 1; SMember 0 3]
  /\ alias_call (OElem Choice) [SField 0; SAt 1; SMember 0 4] CAssign [SField 0; SAt 1; SMember 0 3] v = UB.
Proof.
  split; [apply choice_ok|]. split; [apply choice_ok|]. eexists. split; [vm_compute; reflexivity|]. split; [vm_compute; reflexivity|].
  split; [cbn; split; [reflexivity|left; discriminate]|]. split; [vm_compute; reflexivity|]. split; [vm_compute; reflexivity|].
  split; [cbn; split; [reflexivity|]; split; [reflexivity|]; split; [reflexivity|left; discriminate]|]. vm_compute; reflexivity.
Qed.

Lemma choice_copies :
  oty_ok (OElem Choice) /\ Forall (op_ok (OElem Choice)) choice_ops
  /\ exists v v1, run_ops 0 choice_ops (OElem Choice) (construct (OElem Choice)) = Done v
  /\ alias_call (OElem Choice) [] CAssign [] v = Done (NoErrors, v)
  /\ alias_call (OElem Choice) [SMember 0 1] CAssign [SMember 0 1] v = Done (NoErrors, v)
  /\ alias_call (OElem Choice) [SField 0] CAdd [SField 0; SAt 1] v = Done (NoErrors, v1)
  /\ read_at (OElem Choice) [SField 0; SAt 2; SMember 0 3] v1 = Done (inner_of 5)
  /\ read_at (OElem Choice) [SField 0; SAt 2; SMember 0 3] v = UB
  /\ ~ rivals (OElem Choice) [SField 0; SAt 0; SMember 0 4] [SField 0; SAt 1; SMember 0 3]
  /\ (exists v2, alias_call (OElem Choice) [SField 0; SAt 0; SMember 0 4] CAssign [SField 0; SAt 1; SMember 0 3] v = Done (NoErrors, v2)
        /\ read_at (OElem Choice) [SField 0; SAt 0; SMember 0 4] v2 = Done (inner_of 5)).
Proof.
  split; [apply choice_ok|]. split; [apply choice_ok|]. eexists. eexists. split; [vm_compute; reflexivity|]. split; [vm_compute; reflexivity|].
  split; [vm_compute; reflexivity|]. split; [vm_compute; reflexivity|]. split; [vm_compute; reflexivity|]. split; [vm_compute; reflexivity|].
  split; [cbn; intros (_ & H & _); discriminate|]. eexists. split; [vm_compute; reflexivity|]. vm_compute; reflexivity.
Qed.

Lemma own_data_sample : let ty := ORep 4 (EScalar UInt32) in
  oty_ok ty /\ Forall (op_ok ty) [OpRepSetData [VS 1; VS 2; VS 3; VS 4] 4]
  /\ run_ops 0 [OpRepSetData [VS 1; VS 2; VS 3; VS 4] 4] ty (construct ty) = Done (VR 4 [VS 1; VS 2; VS 3; VS 4])
  /\ set_own_data (EScalar UInt32) (VR 4 [VS 1; VS 2; VS 3; VS 4]) 1 3 = Done (NoErrors, VR 3 [VS 2; VS 3; VS 4; VS 4]).
Proof.
  split; [cbn; unfold capacity_ok; lia|]. split; [|split; vm_compute; reflexivity].
  apply Forall_cons; [|apply Forall_nil]. cbn. split; [|lia]. repeat first [apply Forall_nil|apply Forall_cons]; cbn; lia.
Qed.
