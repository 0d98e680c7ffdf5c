(** * Property C79: fields may arrive in any order.

    [mdec fs os old bs new] (Spec.v): [bs] is a sequence of complete records and [new] the protobuf merge of them into
    [old]. [reordered fs os bs bs'] (SpecFieldOrder.v): [bs'] has the same records in another order, where those of one field, and those of
    one oneof, stay in order; also within nested messages, at any depth. *)
From Verif Require Import Base Buffers Wire Schema Fields Message Api Spec SpecFieldOrder Contracts BufferProofs Samples DecodeSamples
  FieldOrderProofs FieldOrderSamples.

(** Both orders are accepted, and afterwards all getters show the same. *)
Theorem C79_order : forall fs os v bs bs' new, let t := EMsg fs os in
  desc_ok t -> wt t v -> clean t v -> mdec fs os (view t v) bs new -> reordered fs os bs bs' ->
  forall S (R : rops S) rel, reader_ok R rel -> forall s s', rel s bs -> rel s' bs' ->
  forall fuel, (length bs < fuel)%nat ->
  exists v1 v2 s1 s2, deserialize fuel t S R v s = Done (NoErrors, v1, s1) /\ deserialize fuel t S R v s' = Done (NoErrors, v2, s2)
    /\ view t v1 = new /\ view t v2 = new.
Proof. exact decode_reordered. Qed.
Print Assumptions C79_order.

Example C79_order_applies : desc_ok Outer /\ wt Outer (default_value Outer) /\ clean Outer (default_value Outer)
  /\ mdec outer_fields outer_oneofs (view Outer (default_value Outer)) sample_ab sample_new
  /\ reordered outer_fields outer_oneofs sample_ab sample_ab' /\ sample_ab <> sample_ab'
  /\ rfix_rel (zlen sample_ab) (rfix_of sample_ab) sample_ab /\ rfix_rel (zlen sample_ab') (rfix_of sample_ab') sample_ab'.
Proof.
  split; [exact Outer_ok|]. split; [exact outer_default_wt|]. split; [exact outer_default_clean|]. split; [exact sample_ab_ok|].
  split; [exact sample_reordered|]. split; [discriminate|].
  split; (apply rfix_of_rel; [vm_compute; reflexivity|]; vm_compute; repeat constructor; congruence).
Qed.
