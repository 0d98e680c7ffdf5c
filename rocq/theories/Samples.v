(** * Samples: concrete message types and objects used by the examples beside the theorems. *)
From Verif Require Import Base Buffers Wire Schema Fields Message Spec.

(** message Inner { int32 a = 1; optional sint32 b = 2; string s = 3 (max 8); } *)
Definition inner_fields : list fdesc :=
  [(1, KPlain, EScalar Int32); (2, KOpt, EScalar SInt32); (3, KPlain, EBytes true 8)].
Definition Inner : ety := EMsg inner_fields [].

(** message Outer { uint32 u = 1; string s = 2 (max 8); repeated uint32 r = 3 (max 4);
    repeated Inner m = 4 (max 3); optional float f = 5; Inner n = 6;
    oneof o { bool p = 7; Inner q = 8; } } *)
Definition outer_fields : list fdesc :=
  [(1, KPlain, EScalar UInt32); (2, KPlain, EBytes true 8); (3, KRep 4, EScalar UInt32);
   (4, KRep 3, Inner); (5, KOpt, EScalar FloatFixed); (6, KPlain, Inner)].
Definition outer_oneofs : list odesc := [[(7, EScalar Boolean); (8, Inner)]].
Definition Outer : ety := EMsg outer_fields outer_oneofs.

Definition inner_v (a b : Z) : value := VM [1] [VS a; VS b; VB 2 [104; 105; 0; 0; 0; 0; 0; 0]] [].

(** An object of class Outer with everything filled in. *)
Definition outer_v : value :=
  VM [1]
     [VS 300; VB 3 [97; 98; 99; 0; 0; 0; 0; 0]; VR 3 [VS 1; VS 0; VS 200; VS 0];
      VR 2 [inner_v 5 (-3); default_value Inner; default_value Inner]; VS 2147483648; inner_v (-1) 7]
     [(8, inner_v 0 0)].

Ltac ok_tac := repeat split; try lia; try (intros [|]); try tauto; try discriminate;
  try (vm_compute; congruence); try reflexivity.

Lemma Inner_ok : desc_ok Inner.
Proof. cbn. repeat split; try lia. repeat constructor; cbn; intuition lia. Qed.
Lemma Outer_ok : desc_ok Outer.
Proof. cbn. repeat split; try lia; repeat constructor; cbn; intuition lia. Qed.
Lemma outer_v_wt : wt Outer outer_v.
Proof. cbn. unfold is_byte, is_u32. repeat split; try (vm_compute; congruence); try lia. Qed.
Lemma outer_default_wt : wt Outer (default_value Outer).
Proof. cbn. unfold is_byte, is_u32. repeat split; try (vm_compute; congruence); try lia. Qed.
Lemma outer_default_clean : clean Outer (default_value Outer).
Proof. cbn. repeat split; try (vm_compute; congruence). Qed.
Lemma outer_v_clean : clean Outer outer_v.
Proof. cbn. repeat split; try (vm_compute; congruence). Qed.
