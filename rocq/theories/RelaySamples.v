(** An older version of the message Outer of Samples.v, and a message that passes through it. *)
From Verif Require Import Base Buffers Wire Schema Fields Message Api Spec Contracts BufferProofs Samples SpecVersions SpecRelay.

(** message Older { Inner n = 6; string s = 2 (max 8); repeated uint32 r = 3 (max 4); oneof o { bool p = 7; } } *)
Definition older_fields : list fdesc := [(6, KPlain, Inner); (2, KPlain, EBytes true 8); (3, KRep 4, EScalar UInt32)].
Definition older_oneofs : list odesc := [[(7, EScalar Boolean)]].
Definition Older : ety := EMsg older_fields older_oneofs.

Definition bytes_of (t : ety) (v : value) : list Z := enc t (view t v).
Definition result (t : ety) (bytes : list Z) : value :=
  match deserialize (S (length bytes)) t _ (rfix_ops (zlen bytes)) (default_value t) (rfix_of bytes) with Done (_, v, _) => v | _ => VIndet end.
Definition at_relay : value := result Older (bytes_of Outer outer_v).
Definition at_receiver : value := result Outer (bytes_of Older at_relay).
(** What the receiver sees of [outer_v]. *)
Definition relayed_s : sval :=
  SvM [SvZ 0; SvB [97; 98; 99]; SvR [SvZ 1; SvZ 0; SvZ 200]; SvR []; SvNone; SvM [SvZ (-1); SvSome (SvZ 7); SvB [104; 105]] []] [(0, SvNone)].

Lemma Older_ok : desc_ok Older.
Proof. cbn. repeat split; try lia; repeat constructor; cbn; intuition lia. Qed.

Local Ltac cases := repeat match goal with
  | H : _ \/ _ |- _ => destruct H
  | H : (_, _) = (_, _) |- _ => inversion H; clear H; subst
  | H : False |- _ => contradiction
  end.
Local Ltac oneofs := let H := fresh in let H1 := fresh in let H2 := fresh in intros ? ? ? H H1 H2 ? ?; cases; subst; cbn [map fst In] in *; cases; subst; auto; try congruence.
Lemma version_Inner : version Inner Inner.
Proof.
  apply version_message; cbn [In declared flat_map app inner_fields].
  - intros num k t k' t' H H'. cases; try discriminate; (split; [exact I|first [constructor; reflexivity|constructor]]).
  - oneofs.
Qed.
Lemma Outer_Older : version Outer Older.
Proof.
  apply version_message; cbn [In declared field_numbers flat_map map app fst outer_fields outer_oneofs older_fields older_oneofs].
  - intros num k t k' t' H H'. cases; try discriminate; (split; [exact I|first [exact version_Inner|constructor; reflexivity|constructor]]).
  - oneofs.
Qed.
Lemma Older_Outer : version Older Outer.
Proof.
  apply version_message; cbn [In declared field_numbers flat_map map app fst outer_fields outer_oneofs older_fields older_oneofs].
  - intros num k t k' t' H H'. cases; try discriminate; (split; [exact I|first [exact version_Inner|constructor; reflexivity|constructor]]).
  - oneofs.
Qed.
Lemma outer_wrote : wrote_message Outer outer_v (bytes_of Outer outer_v).
Proof.
  exists 60, (wfix_init 60), [], 60. eexists. split; [apply wfix_init_rel; lia|]. split; vm_compute; reflexivity.
Qed.
Lemma relay_wrote : wrote_message Older at_relay (bytes_of Older at_relay).
Proof.
  exists 60, (wfix_init 60), [], 60. eexists. split; [apply wfix_init_rel; lia|]. split; vm_compute; reflexivity.
Qed.
Local Ltac bytes_tac := vm_compute; repeat constructor; discriminate.
Lemma relay_read : read_message Older (bytes_of Outer outer_v) at_relay.
Proof.
  exists _, (rfix_ops (zlen (bytes_of Outer outer_v))), (rfix_rel (zlen (bytes_of Outer outer_v))), (rfix_of (bytes_of Outer outer_v)), (S (length (bytes_of Outer outer_v))). eexists.
  split; [apply rfix_ok|]. split; [apply rfix_of_rel; [vm_compute; reflexivity|bytes_tac]|]. split; [lia|]. vm_compute. reflexivity.
Qed.
Lemma receiver_read : read_message Outer (bytes_of Older at_relay) at_receiver.
Proof.
  exists _, (rfix_ops (zlen (bytes_of Older at_relay))), (rfix_rel (zlen (bytes_of Older at_relay))), (rfix_of (bytes_of Older at_relay)), (S (length (bytes_of Older at_relay))). eexists.
  split; [apply rfix_ok|]. split; [apply rfix_of_rel; [vm_compute; reflexivity|bytes_tac]|]. split; [lia|]. vm_compute. reflexivity.
Qed.

(** message Choice { oneof o { bool p = 7; Inner q = 8; } string s = 2 (max 8); uint32 extra = 9; } *)
Definition choice_fields : list fdesc := [(2, KPlain, EBytes true 8); (9, KPlain, EScalar UInt32)].
Definition Choice : ety := EMsg choice_fields outer_oneofs.
Definition at_choice : value := result Choice (bytes_of Outer outer_v).
Definition after_choice : value := result Outer (bytes_of Choice at_choice).
Lemma Choice_ok : desc_ok Choice.
Proof. cbn. repeat split; try lia; repeat constructor; cbn; intuition lia. Qed.
Local Ltac same_oneof := intros ms' n1 n2 H H1 H2 _ _; right; exists ms'; auto.
Lemma Outer_Choice : version Outer Choice.
Proof.
  apply version_message.
  - cbn [In declared field_numbers flat_map map app fst outer_fields outer_oneofs choice_fields].
    intros num k t k' t' H H'. cases; try discriminate; (split; [exact I|first [exact version_Inner|constructor; reflexivity|constructor]]).
  - same_oneof.
Qed.
Lemma Choice_Outer : version Choice Outer.
Proof.
  apply version_message.
  - cbn [In declared field_numbers flat_map map app fst outer_fields outer_oneofs choice_fields].
    intros num k t k' t' H H'. cases; try discriminate; (split; [exact I|first [exact version_Inner|constructor; reflexivity|constructor]]).
  - same_oneof.
Qed.
Lemma choice_wrote : wrote_message Choice at_choice (bytes_of Choice at_choice).
Proof.
  exists 60, (wfix_init 60), [], 60. eexists. split; [apply wfix_init_rel; lia|]. split; vm_compute; reflexivity.
Qed.
Lemma choice_read : read_message Choice (bytes_of Outer outer_v) at_choice.
Proof.
  exists _, (rfix_ops (zlen (bytes_of Outer outer_v))), (rfix_rel (zlen (bytes_of Outer outer_v))), (rfix_of (bytes_of Outer outer_v)), (S (length (bytes_of Outer outer_v))). eexists.
  split; [apply rfix_ok|]. split; [apply rfix_of_rel; [vm_compute; reflexivity|bytes_tac]|]. split; [lia|]. vm_compute. reflexivity.
Qed.
Lemma after_choice_read : read_message Outer (bytes_of Choice at_choice) after_choice.
Proof.
  exists _, (rfix_ops (zlen (bytes_of Choice at_choice))), (rfix_rel (zlen (bytes_of Choice at_choice))), (rfix_of (bytes_of Choice at_choice)), (S (length (bytes_of Choice at_choice))). eexists.
  split; [apply rfix_ok|]. split; [apply rfix_of_rel; [vm_compute; reflexivity|bytes_tac]|]. split; [lia|]. vm_compute. reflexivity.
Qed.
