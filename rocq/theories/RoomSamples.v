(** Sample objects and bytes for PropertiesRoom.v. *)
From Verif Require Import Base Buffers Wire Schema Fields Message Api Spec Contracts Tables Tables RoundTrip DecodeProofs DecodeProps Samples DecodeSamples RoomProofs.
From Coq Require Import Lia.

Lemma two_values_ok : desc_ok two_values.
Proof. cbn. unfold capacity_ok. repeat split; try lia. repeat constructor; cbn; intuition lia. Qed.
Lemma two_values_good : good two_values (default_value two_values) (sdefault two_values).
Proof. exact (default_ok two_values two_values_ok). Qed.
Lemma two_values_wt : wt two_values (default_value two_values).
Proof. exact (proj1 two_values_good). Qed.
Lemma two_values_clean : clean two_values (default_value two_values).
Proof. exact (proj1 (proj2 two_values_good)). Qed.
Lemma read_twice_bytes : Forall is_byte read_twice.
Proof. repeat constructor; unfold is_byte; lia. Qed.
Lemma sample_ab_bytes : Forall is_byte (sample_a ++ sample_b).
Proof. repeat constructor; unfold is_byte; lia. Qed.
