(** * LawSamples: the message type of the examples in PropertiesLaws.v and PropertiesRefused.v. *)
From Verif Require Import Base Buffers Wire Schema Fields Message Spec Samples.

(** message Mixed { float f = 1; int32 i = 2; repeated string s = 3 (max 2, each max 4);
    repeated uint32 u = 4 (max 3); repeated Inner m = 5 (max 2); int32 j = 8;
    oneof o { string t = 6 (max 4); uint32 e = 7; } } *)
Definition mixed_fields : list fdesc :=
  [(1, KPlain, EScalar FloatFixed); (2, KPlain, EScalar Int32); (3, KRep 2, EBytes true 4);
   (4, KRep 3, EScalar UInt32); (5, KRep 2, Inner); (8, KPlain, EScalar Int32)].
Definition mixed_oneofs : list odesc := [[(6, EBytes true 4); (7, EScalar UInt32)]].
Definition Mixed : ety := EMsg mixed_fields mixed_oneofs.

(** f = -0.0, i = -2, s = ["ab"], j = -3, e = 9. *)
Definition mixed_v : value :=
  VM [] [VS 2147483648; VS (-2); VR 1 [VB 2 [97; 98; 0; 0]; VB 0 [0; 0; 0; 0]];
         VR 0 [VS 0; VS 0; VS 0]; VR 0 [default_value Inner; default_value Inner]; VS (-3)]
     [(7, VS 9)].
Definition mixed_vs : list sval := [SvZ 2147483648; SvZ (-2); SvR [SvB [97; 98]]; SvR []; SvR []; SvZ (-3)].
Definition mixed_ovs : list (Z * sval) := [(7, SvSome (SvZ 9))].

Lemma Mixed_ok : desc_ok Mixed.
Proof. cbn. repeat split; try lia; repeat constructor; cbn; intuition lia. Qed.
Lemma mixed_v_wt : wt Mixed mixed_v.
Proof. cbn. unfold is_byte, is_u32. repeat split; try (vm_compute; congruence); try lia; constructor. Qed.
Lemma mixed_v_clean : clean Mixed mixed_v.
Proof. cbn. repeat split; try (vm_compute; congruence). Qed.
Lemma mixed_v_view : view Mixed mixed_v = SvM mixed_vs mixed_ovs.
Proof. reflexivity. Qed.
