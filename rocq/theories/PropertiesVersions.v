(** * Property C65: sender and receiver compiled from different versions of a .proto file.

    [version t t'] (SpecVersions.v): the numbers that both have stand for fields of the same type; fields may be added,
    removed and moved, also into oneofs and out of them, [optional] may be added and removed, and the lengths of strings, bytes and lists may be different. [carry t t' v] is
    what the receiver should see of the value [v]; [fits t' w] says that no string and no list of [w] is longer than
    the receiver allows. [norm] (Spec.v) makes a negative zero in a plain float or double field zero (property C21). *)
From Verif Require Import Base Buffers Wire Schema Fields Message Api Spec Contracts BufferProofs
  Samples SpecVersions VersionProofs VersionSamples.

(** C65: what the sender wrote, a new or cleared object of the receiver's type reads: every field that both know has
    the sender's value, those the sender does not know are default, those the receiver does not know are skipped. If
    a string or list is longer than the receiver has room for, it is told so: ArrayFull. *)
Theorem C65_versions : forall fs os fs' os' v v0, let t := EMsg fs os in let t' := EMsg fs' os' in
  desc_ok t -> desc_ok t' -> version t t' -> wt t v -> zlen (enc t (view t v)) < 2 ^ 32 ->
  v0 = default_value t' \/ (exists w, wt t' w /\ clear t' w = Done v0) ->
  let w := carry t t' (norm t (view t v)) in
  forall cap b c n b', wfix_rel cap b c (Some n) -> serialize t v _ (wfix_ops cap) b = Done (NoErrors, b') ->
  exists bytes, wfix_content b' = wfix_content b ++ bytes /\
  forall S (R : rops S) rel, reader_ok R rel -> forall s, rel s bytes -> forall fuel, (length bytes < fuel)%nat ->
  (fits t' w = true -> exists v' s', deserialize fuel t' S R v0 s = Done (NoErrors, v', s')
     /\ view t' v' = w /\ (no_neg_zero t (view t v) -> view t' v' = carry t t' (view t v)))
  /\ (fits t' w = false -> exists v' s', deserialize fuel t' S R v0 s = Done (ArrayFull, v', s') /\ wt t' v').
Proof. exact version_round_trip. Qed.
Print Assumptions C65_versions.

(** The receiver has lost fields 1 and 5, has a new field 9, has other lengths and an Inner with fewer fields,
    where b is no longer optional and s has become optional. *)
Example C65_applies : desc_ok Outer /\ desc_ok Newer /\ version Outer Newer /\ wt Outer outer_v
  /\ no_neg_zero Outer (view Outer outer_v) /\ fits Newer (carry Outer Newer (norm Outer (view Outer outer_v))) = true
  /\ exists b v' s', serialize Outer outer_v _ (wfix_ops 60) (wfix_init 60) = Done (NoErrors, b)
     /\ deserialize 54 Newer _ (rfix_ops 53) (default_value Newer) (rfix_of (wfix_content b)) = Done (NoErrors, v', s')
     /\ view Newer v' = carry Outer Newer (view Outer outer_v) /\ view Newer v' = newer_s.
Proof.
  split; [exact Outer_ok|]. split; [exact Newer_ok|]. split; [exact Newer_version|]. split; [exact outer_v_wt|].
  split; [cbn; repeat split; try (vm_compute; congruence); lia|]. split; [vm_compute; reflexivity|].
  do 3 eexists. split; [vm_compute; reflexivity|]. split; [vm_compute; reflexivity|]. split; vm_compute; reflexivity.
Qed.

(** The receiver's string is too short. *)
Example C65_too_long_applies : desc_ok Shorter /\ version Outer Shorter
  /\ fits Shorter (carry Outer Shorter (norm Outer (view Outer outer_v))) = false
  /\ exists b v' s', serialize Outer outer_v _ (wfix_ops 60) (wfix_init 60) = Done (NoErrors, b)
     /\ deserialize 54 Shorter _ (rfix_ops 53) (default_value Shorter) (rfix_of (wfix_content b)) = Done (ArrayFull, v', s').
Proof.
  split; [exact Shorter_ok|]. split; [exact Shorter_version|]. split; [vm_compute; reflexivity|].
  do 3 eexists. split; [vm_compute; reflexivity|]. vm_compute; reflexivity.
Qed.

(** Fields 2 and 5 have moved into oneofs, field 8 has left its oneof, fields 7 and 8 are no longer in one oneof. *)
Example C65_moved_applies : desc_ok Moved /\ version Outer Moved
  /\ fits Moved (carry Outer Moved (norm Outer (view Outer outer_v))) = true
  /\ exists b v' s', serialize Outer outer_v _ (wfix_ops 60) (wfix_init 60) = Done (NoErrors, b)
     /\ deserialize 54 Moved _ (rfix_ops 53) (default_value Moved) (rfix_of (wfix_content b)) = Done (NoErrors, v', s')
     /\ view Moved v' = carry Outer Moved (view Outer outer_v) /\ view Moved v' = moved_s.
Proof.
  split; [exact Moved_ok|]. split; [exact Moved_version|]. split; [vm_compute; reflexivity|].
  do 3 eexists. split; [vm_compute; reflexivity|]. split; [vm_compute; reflexivity|]. split; vm_compute; reflexivity.
Qed.
