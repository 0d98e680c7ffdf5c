(** Samples used beside the theorems of C89. *)
From Verif Require Import Base Buffers Schema Message Spec Contracts BufferProofs Samples SpecRetype SpecVersions SpecUpdate UpdateProofs.

(** The sender: message Old { uint32 x = 1; repeated uint32 r = 3 (max 3); Inner q = 8; } *)
Definition old_fields : list fdesc := [(1, KPlain, EScalar UInt32); (3, KRep 3, EScalar UInt32); (8, KPlain, Inner)].
Definition Old : ety := EMsg old_fields [].
(** The receiver: message New { optional float f = 2; repeated uint64 r = 3 (max 4); oneof o { Inner q = 8; uint64 x = 1; } } *)
Definition new_fields : list fdesc := [(2, KOpt, EScalar FloatFixed); (3, KRep 4, EScalar UInt64)].
Definition new_oneofs : list odesc := [[(8, Inner); (1, EScalar UInt64)]].
Definition New : ety := EMsg new_fields new_oneofs.

Definition old_v (x len r1 r2 : Z) (q : value) : value := VM [] [VS x; VR len [VS r1; VS r2; VS 0]; q] [].
Definition new_v (r1 r2 r3 : Z) (o : Z * value) : value := VM [1] [VS 1065353216; VR 3 [VS r1; VS r2; VS r3; VS 0]] [o].

Ltac wt_tac := cbn; unfold is_byte, is_u32; repeat split; try (vm_compute; congruence); try lia.
Lemma Old_ok : desc_ok Old.
Proof. unfold Old, desc_ok; cbn; unfold capacity_ok; repeat split; try lia; repeat constructor; cbn; intuition lia. Qed.
Lemma New_ok : desc_ok New.
Proof. unfold New, desc_ok; cbn; unfold capacity_ok; repeat split; try lia; repeat constructor; cbn; intuition lia. Qed.
Lemma Inner_compatible : compatible Inner Inner.
Proof. apply compatible_refl. exact Inner_ok. Qed.
Lemma Old_New : compatible Old New.
Proof.
  constructor. intros num k t k' t' H1 H2. cbn in H1, H2.
  repeat match goal with H : _ \/ _ |- _ => destruct H as [H|H] | H : False |- _ => contradiction end; injection H1; injection H2; intros; subst; try discriminate; try lia;
    (split; [exact I|first [exact Inner_compatible|constructor; reflexivity]]).
Qed.
Lemma old_wt : wt Old (old_v 300 1 7 0 (inner_v 4 0)) /\ wt Old (old_v 300 1 7 0 (default_value Inner)) /\ wt Old (old_v 0 2 7 8 (default_value Inner)).
Proof. split; [|split]; wt_tac. Qed.
Lemma new_wt : wt New (new_v 1 2 3 (8, inner_v 5 9)) /\ clean New (new_v 1 2 3 (8, inner_v 5 9)).
Proof. split; wt_tac. Qed.
