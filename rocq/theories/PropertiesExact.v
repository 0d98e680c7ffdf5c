(** * C17: which objects fit in exactly serialized_size() bytes.
    Specification: SpecExact.v ([ends_in_bytes]), Spec.v ([enc]). *)
From Verif Require Import Base Buffers Wire Schema Fields Message Spec SpecExact Contracts BufferProofs Samples ExactProofs.
From Coq Require Import Lia.

(** With [n] bytes left in a fixed-size buffer, serialize() succeeds exactly when serialized_size() is below
    [n], or equal to [n] and the last bytes of the encoding are not the content of a string or bytes field;
    otherwise it reports BUFFER_FULL. *)
Theorem C17_exact_space_iff : forall fs os v cap b c n, let t := EMsg fs os in
  wt t v -> desc_ok t -> wfix_rel cap b c (Some n) -> zlen (enc t (view t v)) < 2 ^ 32 ->
  exists size e b', serialized_size (serialize t v) = Done size
  /\ serialize t v wfix (wfix_ops cap) b = Done (e, b')
  /\ (e = NoErrors <-> size < n \/ size = n /\ ends_in_bytes t (view t v) = false)
  /\ (e <> NoErrors -> e = BufferFull).
Proof. exact exact_space. Qed.
Print Assumptions C17_exact_space_iff.

(** The sample object ends in a nested message that ends in a string: 53 bytes, which do not fit in 53. Without
    its oneof it ends in the string of the field before; with that one cleared too, in a float, and its 17 bytes
    fit in 17. *)
Definition ends_in_float : value :=
  VM [1] [VS 300; VB 2 [104; 105; 0; 0; 0; 0; 0; 0]; VR 2 [VS 1; VS 300; VS 0; VS 0]; VR 0 [inner_v 0 0; inner_v 0 0; inner_v 0 0];
          VS 2147483648; VM [0] [VS 0; VS 0; VB 0 [0; 0; 0; 0; 0; 0; 0; 0]] []] [(0, VIndet)].

Example C17_iff_applies : wt Outer outer_v /\ desc_ok Outer /\ wfix_rel 53 (wfix_init 53) [] (Some 53)
  /\ serialized_size (serialize Outer outer_v) = Done 53 /\ ends_in_bytes Outer (view Outer outer_v) = true
  /\ wt Outer ends_in_float /\ ends_in_bytes Outer (view Outer ends_in_float) = false
  /\ serialized_size (serialize Outer ends_in_float) = Done 17
  /\ (exists b, serialize Outer ends_in_float _ (wfix_ops 17) (wfix_init 17) = Done (NoErrors, b))
  /\ (exists b, serialize Outer ends_in_float _ (wfix_ops 16) (wfix_init 16) = Done (BufferFull, b)).
Proof.
  split; [exact outer_v_wt|]. split; [exact Outer_ok|].
  split; [repeat split; try (cbn; lia); repeat constructor; lia|].
  split; [vm_compute; reflexivity|]. split; [vm_compute; reflexivity|].
  split; [cbn; unfold is_byte, is_u32; repeat split; try lia; repeat constructor; lia|].
  split; [vm_compute; reflexivity|]. split; [vm_compute; reflexivity|].
  split; eexists; vm_compute; reflexivity.
Qed.
