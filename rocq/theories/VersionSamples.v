(** Other versions of the message Outer of Samples.v. *)
From Verif Require Import Base Schema Spec Samples SpecVersions.

(** message NewInner { uint32 e = 5; optional bytes s = 3 (max 2); sint64 b = 2; } *)
Definition NewInner : ety := EMsg [(5, KPlain, EScalar UInt32); (3, KOpt, EBytes false 2); (2, KPlain, EScalar SInt64)] [].
(** message Newer { NewInner n = 6; repeated NewInner m = 4 (max 2); string t = 9 (max 4); repeated uint64 r = 3 (max 10);
    bytes s = 2 (max 3); oneof o { NewInner q = 8; uint32 x = 10; } oneof o2 { bool p = 7; } } *)
Definition newer_fields : list fdesc :=
  [(6, KPlain, NewInner); (4, KRep 2, NewInner); (9, KPlain, EBytes true 4); (3, KRep 10, EScalar UInt64); (2, KPlain, EBytes false 3)].
Definition newer_oneofs : list odesc := [[(8, NewInner); (10, EScalar UInt32)]; [(7, EScalar Boolean)]].
Definition Newer : ety := EMsg newer_fields newer_oneofs.
(** message Shorter { string s = 2 (max 2); } *)
Definition Shorter : ety := EMsg [(2, KPlain, EBytes true 2)] [].

(** message Moved { Inner q = 8; optional uint32 a = 1; oneof o { string s = 2 (max 8); uint32 x = 9; } oneof o2 { float f = 5; }
    oneof o3 { bool p = 7; } } *)
Definition Moved : ety := EMsg [(8, KPlain, Inner); (1, KOpt, EScalar UInt32)]
  [[(2, EBytes true 8); (9, EScalar UInt32)]; [(5, EScalar FloatFixed)]; [(7, EScalar Boolean)]].

(** What the receivers see of [outer_v]. *)
Definition moved_s : sval :=
  SvM [SvM [SvZ 0; SvSome (SvZ 0); SvB [104; 105]] []; SvSome (SvZ 300)]
      [(2, SvSome (SvB [97; 98; 99])); (5, SvSome (SvZ 2147483648)); (0, SvNone)].
Definition newer_s : sval :=
  SvM [SvM [SvZ 0; SvSome (SvB [104; 105]); SvZ 7] [];
       SvR [SvM [SvZ 0; SvSome (SvB [104; 105]); SvZ (-3)] []; SvM [SvZ 0; SvNone; SvZ 0] []];
       SvB []; SvR [SvZ 1; SvZ 0; SvZ 200]; SvB [97; 98; 99]]
      [(8, SvSome (SvM [SvZ 0; SvSome (SvB [104; 105]); SvZ 0] [])); (0, SvNone)].

Lemma Newer_ok : desc_ok Newer.
Proof. cbn. repeat split; try lia; repeat constructor; cbn; intuition lia. Qed.
Lemma Shorter_ok : desc_ok Shorter.
Proof. cbn. repeat split; try lia; repeat constructor; cbn; intuition lia. Qed.

Lemma Moved_ok : desc_ok Moved.
Proof. cbn. repeat split; try lia; repeat constructor; cbn; intuition lia. Qed.

Local Ltac cases := repeat match goal with
  | H : _ \/ _ |- _ => destruct H
  | H : (_, _) = (_, _) |- _ => inversion H; clear H; subst
  | H : False |- _ => contradiction
  end.
Local Ltac oneofs := let H := fresh in let H1 := fresh in let H2 := fresh in intros ? ? ? H H1 H2 ? ?; cases; subst; cbn [map fst In] in *; cases; subst; auto; try congruence.
Lemma version_Inner : version Inner Inner.
Proof.
  apply version_message; cbn [In declared flat_map app inner_fields].
  - intros num k t k' t' H H'. cases; try discriminate; (split; [exact I|first [constructor; reflexivity|constructor]]).
  - oneofs.
Qed.
Lemma NewInner_version : version Inner NewInner.
Proof.
  apply version_message; cbn [In declared flat_map app inner_fields].
  - intros num k t k' t' H H'. cases; try discriminate; (split; [exact I|first [constructor; reflexivity|constructor]]).
  - oneofs.
Qed.
Lemma Newer_version : version Outer Newer.
Proof.
  apply version_message; cbn [In declared field_numbers flat_map map app fst outer_fields outer_oneofs newer_fields newer_oneofs].
  - intros num k t k' t' H H'. cases; try discriminate; (split; [exact I|first [exact NewInner_version|constructor; reflexivity|constructor]]).
  - oneofs.
Qed.
Lemma Shorter_version : version Outer Shorter.
Proof.
  apply version_message; cbn [In declared field_numbers flat_map map app fst outer_fields outer_oneofs].
  - intros num k t k' t' H H'. cases; try discriminate; (split; [exact I|first [constructor; reflexivity|constructor]]).
  - oneofs.
Qed.
Lemma Moved_version : version Outer Moved.
Proof.
  apply version_message; cbn [In declared field_numbers flat_map map app fst outer_fields outer_oneofs].
  - intros num k t k' t' H H'. cases; try discriminate; (split; [exact I|first [exact version_Inner|constructor; reflexivity|constructor]]).
  - oneofs.
Qed.
