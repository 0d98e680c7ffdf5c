(** Objects for the examples beside C83. *)
From Verif Require Import Base Buffers Wire Schema Fields Message Api Spec SpecApi Alias SpecAlias Kept SpecKept.

(** message Part { uint32 n = 1; }
    message Page { optional Part head = 1; repeated Part parts = 2 (max 3); oneof o { Part c = 3; Part d = 4; } } *)
Definition Part : ety := EMsg [(1, KPlain, EScalar UInt32)] [].
Definition Page : ety := EMsg [(1, KOpt, Part); (2, KRep 3, Part)] [[(3, Part); (4, Part)]].
Definition part_of (n : Z) : value := VM [] [VS n] [].

(** page.add_parts(7); auto& r = page.mutable_head() / mutable_parts(1) / mutable_c(); then other calls *)
Definition first : list op := [OpField 1 (OpRepAdd (part_of 7))].
Definition at_head : list step := [SField 0].
Definition at_second : list step := [SField 1; SAt 1].
Definition at_c : list step := [SMember 0 3].
Definition others : list op :=
  [OpField 1 (OpRepAdd (part_of 8)); OpOneof 0 3 (OpField 0 (OpScalarSet 2)); OpField 0 (OpField 0 (OpScalarSet 3)); OpField 1 (OpRepSet 0 (part_of 9))].
Definition set_n (n : Z) : op := OpField 0 (OpScalarSet n).

Lemma page_ok : oty_ok (OElem Page).
Proof. cbn; unfold capacity_ok; repeat split; try lia; repeat constructor; cbn; intuition lia. Qed.
Lemma first_ok : Forall (op_ok (OElem Page)) first.
Proof. repeat first [apply Forall_nil|apply Forall_cons]; cbn; repeat split; try lia; repeat constructor; vm_compute; congruence. Qed.
Lemma others_ok : Forall (op_ok (OElem Page)) others.
Proof. repeat first [apply Forall_nil|apply Forall_cons]; cbn; unfold legal_index; repeat split; try lia; repeat constructor; vm_compute; congruence. Qed.
Lemma page_refs : Forall (fun p => type_at (OElem Page) p = Some (OElem Part) /\ op_ok (OElem Page) (nest p OpTouch)) [at_head; at_second; at_c].
Proof. repeat first [apply Forall_nil|apply Forall_cons]; (split; [reflexivity|]); cbn; unfold legal_index; repeat split; lia. Qed.
Lemma set_n_ok n : 0 <= n < 2 ^ 32 -> op_ok (OElem Part) (set_n n).
Proof. intros H. cbn. unfold is_u32. lia. Qed.

(** All three are kept through the other calls, and writing through them shows. *)
Lemma page_kept : Forall (fun p => Forall (spares (OElem Page) p) others
  /\ exists v v', run_ops 0 (first ++ nest p OpTouch :: others) (OElem Page) (construct (OElem Page)) = Done v
     /\ through (OElem Page) p (run_op 0 (set_n 5)) v = Done (NoErrors, v')
     /\ shown (OElem Page) (oview (OElem Page) v') p = Some (SvM [SvZ 5] [])) [at_head; at_second; at_c].
Proof.
  repeat first [apply Forall_nil|apply Forall_cons]; (split; [repeat first [apply Forall_nil|apply Forall_cons]; cbn; auto; try discriminate|]);
    (eexists; eexists; (split; [vm_compute; reflexivity|]); (split; [vm_compute; reflexivity|]); vm_compute; reflexivity).
Qed.

(** clear_head(), clear_parts(): writing goes unnoticed, and comes back with the next mutable_head(), mutable_parts(1) *)
Definition forget : list op := [OpField 1 (OpRepAdd (part_of 8)); OpClearField 0; OpClearField 1].
Lemma forget_ok : Forall (op_ok (OElem Page)) forget.
Proof. repeat first [apply Forall_nil|apply Forall_cons]; cbn; repeat split; try lia; try discriminate; repeat constructor; vm_compute; congruence. Qed.
Lemma page_hidden : exists v, run_ops 0 forget (OElem Page) (construct (OElem Page)) = Done v
  /\ Forall (fun p => shown (OElem Page) (oview (OElem Page) v) p = None /\ ~ switched (OElem Page) p v
       /\ exists v' v'', through (OElem Page) p (run_op 0 (set_n 5)) v = Done (NoErrors, v') /\ oview (OElem Page) v' = oview (OElem Page) v
          /\ run_op 0 (nest p OpTouch) (OElem Page) v' = Done (NoErrors, v'') /\ shown (OElem Page) (oview (OElem Page) v'') p = Some (SvM [SvZ 5] [])) [at_head; at_second].
Proof.
  eexists. split; [vm_compute; reflexivity|].
  repeat first [apply Forall_nil|apply Forall_cons]; (split; [vm_compute; reflexivity|]);
    (split; [intros (p1 & pos & id & p2 & m & w & H & _); destruct p1 as [|? [|? [|]]]; discriminate|]);
    (eexists; eexists; (split; [vm_compute; reflexivity|]); (split; [vm_compute; reflexivity|]); (split; [vm_compute; reflexivity|]); vm_compute; reflexivity).
Qed.

(** mutable_d() or clear_c() after mutable_c() *)
Definition switch : list op := [OpOneof 0 3 OpTouch; OpOneof 0 4 OpTouch].
Definition drop : list op := [OpOneof 0 3 OpTouch; OpOneofClear 0 3].
Lemma page_switched : Forall (fun ops => Forall (op_ok (OElem Page)) ops
  /\ exists v, run_ops 0 ops (OElem Page) (construct (OElem Page)) = Done v /\ switched (OElem Page) at_c v
     /\ through (OElem Page) at_c (run_op 0 (set_n 5)) v = UB) [switch; drop].
Proof.
  repeat first [apply Forall_nil|apply Forall_cons]; (split; [repeat first [apply Forall_nil|apply Forall_cons]; cbn; auto; discriminate|]);
    (eexists; (split; [vm_compute; reflexivity|]); (split; [|vm_compute; reflexivity]); exists [], 0%nat, 3, []; eexists; eexists; (split; [reflexivity|]); (split; [reflexivity|]); (split; [vm_compute; reflexivity|]); discriminate).
Qed.
